From Verif Require Import Base Diff.
From Verif Require Import SolverModel SubstepModel CreepModel NlModel NlSpec NlProofs UniModel UniSpec UniProofs DrvModel DrvSpec DrvProofs TestsModel TestsSpec TestsProofs.
From Coq Require Import ZArith String List FunctionalExtensionality.
Import ListNotations.

Lemma passes_snoc f : forall n st st', passes (S n) f st = (st', None) -> exists st1, passes n f st = (st1, None) /\ f st1 = (st', None).
Proof.
  induction n as [|n IH]; intros st st' H.
  - cbn [passes] in *. destruct (f st) as [s [x|]] eqn:E; [discriminate|]. injection H as <-. exists st. split; [reflexivity|exact E].
  - change (passes (S (S n)) f st) with (match f st with (st', None) => passes (S n) f st' | x => x end) in H.
    destruct (f st) as [s [x|]] eqn:E; [discriminate|]. destruct (IH _ _ H) as (s1 & A & B). exists s1. split; [|exact B].
    cbn [passes]. rewrite E. exact A.
Qed.
Lemma passes_stop f : forall n st st' x, passes n f st = (st', Some x) -> exists k st1, (k < n)%nat /\ passes k f st = (st1, None) /\ f st1 = (st', Some x).
Proof.
  induction n as [|n IH]; intros st st' x H; cbn [passes] in H; [discriminate|]. destruct (f st) as [s [y|]] eqn:E.
  - injection H as <- <-. exists 0%nat, st. split; [lia|]. split; [reflexivity|exact E].
  - destruct (IH _ _ _ H) as (k & s1 & A & B & C). exists (S k), s1. split; [lia|]. split; [|exact C]. cbn [passes]. rewrite E. exact B.
Qed.
Lemma along_unit v sdir : 0 < norm2 6 sdir -> dot 6 v sdir = norm2 6 sdir * dot 6 v (unitv sdir).
Proof. intros H. unfold dot. rewrite <- rsum_scal. apply rsum_ext. intros. unfold unitv. field. lra. Qed.
Lemma moved_along sdir inc t e f d d' : 0 < norm2 6 sdir -> moved (unitv sdir) inc t e f d d' ->
  Rabs (along (dv_strain d') sdir - along (dv_strain d) sdir - norm2 6 sdir * inc) <= norm2 6 sdir * f.
Proof.
  intros HN (_ & H & _). unfold along. rewrite !(along_unit _ sdir HN).
  assert (E : dot 6 (fun i => top (dv_strain d') i - top (dv_strain d) i) (unitv sdir) = dot 6 (top (dv_strain d')) (unitv sdir) - dot 6 (top (dv_strain d)) (unitv sdir)).
  { unfold dot. rewrite <- rsum_minus. apply rsum_ext. intros. ring. }
  rewrite E in H. set (X := dot 6 (top (dv_strain d')) (unitv sdir)) in *. set (Y := dot 6 (top (dv_strain d)) (unitv sdir)) in *.
  replace (norm2 6 sdir * X - norm2 6 sdir * Y - norm2 6 sdir * inc) with (norm2 6 sdir * (X - Y - inc)) by ring.
  rewrite Rabs_mult, (Rabs_pos_eq (norm2 6 sdir)) by lra. apply Rmult_le_compat_l; [lra|exact H].
Qed.
Lemma ramp_trace M P sdir erate einc T dmg : einc <> 0 -> 0 < norm2 6 sdir -> forall n st st', synced sdir st -> ramp M P sdir sdir erate einc T dmg n st = (st', None) ->
  ramp_entries P sdir erate einc n st st'.
Proof.
  intros HE HN. induction n as [|n IH]; intros st st' HS H.
  - unfold ramp in H. cbn [passes] in H. injection H as <-. exists [], [], []. repeat (split; [reflexivity|]). intros k Hk. lia.
  - assert (H' := H). unfold ramp in H'. destruct (passes_snoc _ _ _ _ H') as (s1 & A & B). destruct (IH st s1 HS A) as (le & lt & ls & E1 & L1 & E2 & L2 & E3 & L3 & Q).
    destruct (pass_ok _ _ _ _ _ _ B) as (d & ei & a & Er & Ed & F1 & F2 & F3).
    destruct (ramp_moves _ _ _ _ _ _ _ _ _ _ _ HE HS H) as (S' & _ & e & We & Me).
    exists (along (dv_strain d) sdir :: le), (topr (ts_t s1) + einc / erate :: lt), (along (dv_stress d) sdir :: ls).
    rewrite F1, F2, F3, E1, E2, E3. cbn [app Datatypes.length]. rewrite L1, L2, L3. repeat (split; [reflexivity|]).
    intros k Hk. destruct (Nat.eq_dec k (S n)) as [->|Nk].
    + exists e. split; [exact We|]. unfold kth. rewrite Nat.sub_diag. cbn [nth].
      destruct HS as (_ & _ & _ & T0 & E0 & _). destruct S' as (_ & _ & _ & T1 & _ & _). rewrite E0. split.
      * assert (W := moved_along _ _ _ _ _ _ _ HN Me). rewrite Ed in W. exact W.
      * destruct Me as (Mt & _ & _). rewrite F3 in T1. cbn [topr hd] in T1. fold (topr (ts_t s1)) in T1. rewrite E2 in T1. rewrite T1, Mt, T0. reflexivity.
    + destruct (Q k ltac:(lia)) as (e' & W' & Q1 & Q2). exists e'. split; [exact W'|]. unfold kth in *. replace (S n - k)%nat with (S (n - k))%nat by lia. cbn [nth]. split; assumption.
Qed.
(** ** the uniaxial test *)
Lemma ut_pass_pass M P sdir erate einc T dtol st st' : ut_pass M P sdir erate einc T dtol st = (st', None) ->
  pass sdir (einc / erate) None (erate_einc_step M P (ts_d st) sdir erate einc T (ts_ge st) (ts_ga st)) st = (st', None).
Proof. unfold ut_pass, pass. destruct (erate_einc_step _ _ _ _ _ _ _ _ _) as [[[d ei] a]|]; [|discriminate]. destruct (Rlt_dec _ _); [discriminate|]. exact (fun H => H). Qed.
Lemma ut_ramp M P sdir erate einc T dtol : forall n st st', passes n (ut_pass M P sdir erate einc T dtol) st = (st', None) -> ramp M P sdir sdir erate einc T None n st = (st', None).
Proof.
  unfold ramp. induction n as [|n IH]; intros st st' H; cbn [passes] in *; [exact H|].
  destruct (ut_pass M P sdir erate einc T dtol st) as [s [x|]] eqn:E; [discriminate|]. apply ut_pass_pass in E. rewrite E. apply IH, H.
Qed.
Lemma uniaxial_sound M P sdir erate T emax dtol check nsteps st : emax <> 0 -> 0 < norm2 6 sdir -> (0 < nsteps)%nat ->
  uniaxial_test M P sdir erate T emax dtol check nsteps = Ret st ->
  exists k, (k <= nsteps)%nat /\ ramp_entries P sdir erate (emax / INR nsteps) k (tst0 M T) st /\
    (k = nsteps \/ dtol < pm_damage M (top (dv_stored (ts_d st))) \/ exists x, erate_einc_step M P (ts_d st) sdir erate (emax / INR nsteps) T (ts_ge st) (ts_ga st) = Raise x).
Proof.
  intros HE HN Hn H. assert (HI : emax / INR nsteps <> 0). { apply Rmult_integral_contrapositive_currified; [exact HE|]. apply Rinv_neq_0_compat, not_0_INR. lia. }
  assert (S0 := synced_start sdir M T). unfold uniaxial_test in H.
  destruct (passes nsteps _ _) as [s [x|]] eqn:E.
  - destruct (passes_stop _ _ _ _ _ E) as (k & s1 & Hk & A & B). assert (RE := ramp_trace _ _ _ _ _ _ _ HI HN _ _ _ S0 (ut_ramp _ _ _ _ _ _ _ _ _ _ A)).
    assert (st = s) as -> by (destruct x; [|destruct check]; congruence). exists k. split; [lia|]. unfold ut_pass in B.
    destruct (erate_einc_step M P (ts_d s1) sdir erate (emax / INR nsteps) T (ts_ge s1) (ts_ga s1)) as [[[d ei] a]|y] eqn:F.
    + destruct (Rlt_dec _ _) as [L|]; [|discriminate]. injection B as <- _. split; [exact RE|]. right. left. exact L.
    + injection B as <- _. split; [exact RE|]. right. right. exists y. exact F.
  - assert (s = st) as -> by congruence. exists nsteps. split; [lia|]. split; [|left; reflexivity]. apply (ramp_trace _ _ _ _ _ _ _ HI HN _ _ _ S0 (ut_ramp _ _ _ _ _ _ _ _ _ _ E)).
Qed.

(** ** strain controlled cycles *)
Lemma unitv_opp sdir : unitv (vopp sdir) = fun i => - unitv sdir i.
Proof.
  assert (E : norm2 6 (vopp sdir) = norm2 6 sdir) by (unfold norm2, dot, vopp; f_equal; apply rsum_ext; intros; ring).
  apply functional_extensionality. intros i. unfold unitv. rewrite E. unfold vopp, Rdiv. ring.
Qed.
Lemma synced_flip sdir st : synced sdir st -> synced sdir (flip st).
Proof. exact (fun H => H). Qed.
Lemma do_hold_moves M P c h st st' : (0 < cp_nhold c)%nat -> 0 <= h -> synced (cp_sdir c) st -> do_hold M P c h st = (st', None) ->
  synced (cp_sdir c) st' /\ (exists ls, ts_s st' = ls ++ ts_s st) /\ exists n e f, errors P n e /\ 0 <= f <= e * h /\ moved (unitv (cp_sdir c)) 0 h e f (ts_d st) (ts_d st').
Proof.
  intros Hn Hh HS H. unfold do_hold in H. destruct (Rlt_dec 0 h) as [L|L].
  - assert (NI : 0 < INR (cp_nhold c)) by (apply lt_0_INR; exact Hn).
    assert (Hdt : 0 < h / INR (cp_nhold c)) by (apply Rdiv_lt_0_compat; assumption).
    assert (Hd0 : h / INR (cp_nhold c) <> 0) by lra. destruct (holds_moves _ _ _ _ _ _ _ _ _ Hd0 HS H) as (S' & _ & e & We & Me). split; [exact S'|]. split.
    + clear - H. unfold hold in H. refine (passes_induct (fun _ st st' => exists ls, ts_s st' = ls ++ ts_s st) _ _ _ _ _ _ H).
      * intros s. exists []. reflexivity.
      * intros k s s1 s2 Hp (ls & IH). destruct (pass_ok _ _ _ _ _ _ Hp) as (d & ei & a & _ & _ & _ & E2 & _). exists (ls ++ [along (dv_stress d) (cp_sdir c)]). rewrite IH, E2, <- app_assoc. reflexivity.
    + exists (cp_nhold c), e, (e * Rabs (h / INR (cp_nhold c))). split; [exact We|]. assert (P0 := errors_nonneg _ _ _ We).
      rewrite (Rabs_pos_eq (h / INR (cp_nhold c))) in * by lra. split.
      * split; [apply Rmult_le_pos; lra|]. apply Rmult_le_compat_l; [exact P0|]. apply (Rmult_le_reg_r (INR (cp_nhold c))); [exact NI|]. unfold Rdiv. rewrite Rmult_assoc, Rinv_l by lra.
        assert (1 <= INR (cp_nhold c)) by (change 1 with (INR 1); apply le_INR; lia). nra.
      * replace (INR (cp_nhold c) * (h / INR (cp_nhold c))) with h in Me by (field; lra). exact Me.
  - injection H as <-. assert (h = 0) as -> by lra. split; [exact HS|]. split; [exists []; reflexivity|]. exists 0%nat, 0, 0. split; [constructor|]. split; [lra|]. apply moved_refl.
Qed.
Lemma ramp_stress M P sdir pull erate einc T dmg n st st' : ramp M P sdir pull erate einc T dmg n st = (st', None) -> exists ls, ts_s st' = ls ++ ts_s st /\ length ls = n.
Proof.
  intros H. unfold ramp in H. refine (passes_induct (fun n st st' => exists ls, ts_s st' = ls ++ ts_s st /\ length ls = n) _ _ _ _ _ _ H).
  - intros s. exists []. split; reflexivity.
  - intros k s s1 s2 Hp (ls & IH & L). destruct (pass_ok _ _ _ _ _ _ Hp) as (d & ei & a & _ & _ & _ & E2 & _). exists (ls ++ [along (dv_stress d) sdir]). rewrite IH, E2, <- app_assoc. split; [reflexivity|]. rewrite app_length, L. cbn. lia.
Qed.
Lemma cycle_moves M P c st si st' : cycle_ok c -> synced (cp_sdir c) st -> one_cycle M P c st = (si, (st', None)) ->
  synced (cp_sdir c) st' /\
  (exists ls s0, ts_s st' = ls ++ s0 /\ length s0 = si /\ ls <> [] /\ exists h, s0 = h ++ ts_s st) /\
  exists dr n1 n2 e1 e2 f1 f2, errors P n1 e1 /\ errors P n2 e2 /\
    moved (unitv (cp_sdir c)) (- ampl c) (cp_hold0 c + ampl c / cp_erate c) e1 f1 (ts_d st) dr /\
    moved (unitv (cp_sdir c)) (ampl c) (cp_hold1 c + ampl c / cp_erate c) e2 f2 dr (ts_d st') /\
    f1 <= e1 * (cp_hold0 c + Rabs (ampl c / cp_erate c)) /\ f2 <= e2 * (cp_hold1 c + Rabs (ampl c / cp_erate c)).
Proof.
  intros (Hn & Hnh & H0 & H1 & Hm & HN) HS H. assert (NI : 0 < INR (cp_nsteps c)) by (apply lt_0_INR; exact Hn). assert (NI1 : 1 <= INR (cp_nsteps c)) by (change 1 with (INR 1); apply le_INR; lia).
  assert (HA : 0 < ampl c) by (apply Rabs_pos_lt; lra).
  assert (EA : Rabs (cp_emax c - cp_emax c * cp_R c) = ampl c) by (unfold ampl; rewrite <- Rabs_Ropp; f_equal; ring).
  assert (ES : forall e, 0 <= e -> 0 <= e * Rabs (ampl c / INR (cp_nsteps c) / cp_erate c) <= e * Rabs (ampl c / cp_erate c)).
  { intros e He. split; [apply Rmult_le_pos; [exact He|apply Rabs_pos]|]. apply Rmult_le_compat_l; [exact He|].
    replace (ampl c / INR (cp_nsteps c) / cp_erate c) with (ampl c / cp_erate c * / INR (cp_nsteps c)) by (unfold Rdiv; ring). rewrite Rabs_mult. rewrite <- (Rmult_1_r (Rabs (ampl c / cp_erate c))) at 2.
    apply Rmult_le_compat_l; [apply Rabs_pos|]. rewrite Rabs_pos_eq by (left; apply Rinv_0_lt_compat, NI). rewrite <- Rinv_1. apply Rinv_le_contravar; lra. }
  unfold one_cycle in H. fold (ampl c) in H. rewrite EA in H. destruct (do_hold M P c (cp_hold0 c) st) as [s0 [x|]] eqn:E0; [congruence|].
  destruct (do_hold_moves _ _ _ _ _ _ Hnh H0 HS E0) as (S0 & (l0 & L0) & n0 & e0 & f0 & W0 & B0 & M0).
  destruct (ramp M P (cp_sdir c) (vopp (cp_sdir c)) (cp_erate c) (ampl c / INR (cp_nsteps c)) (cp_T c) (cp_dmg c) (cp_nsteps c) (flip s0)) as [s1 [x|]] eqn:E1; cbn [andthen] in H; [congruence|].
  assert (HI : ampl c / INR (cp_nsteps c) <> 0) by (apply Rgt_not_eq, Rdiv_lt_0_compat; assumption).
  destruct (ramp_moves _ _ _ _ _ _ _ _ _ _ _ HI (synced_flip _ _ S0) E1) as (S1 & _ & e1 & W1 & M1). destruct (ramp_stress _ _ _ _ _ _ _ _ _ _ _ E1) as (l1 & L1 & N1).
  destruct (do_hold M P c (cp_hold1 c) s1) as [s2 [x|]] eqn:E2; cbn [andthen] in H; [congruence|].
  destruct (do_hold_moves _ _ _ _ _ _ Hnh H1 S1 E2) as (S2 & (l2 & L2) & n2 & e2 & f2 & W2 & B2 & M2).
  injection H as <- E3. destruct (ramp_moves _ _ _ _ _ _ _ _ _ _ _ HI (synced_flip _ _ S2) E3) as (S3 & _ & e3 & W3 & M3). destruct (ramp_stress _ _ _ _ _ _ _ _ _ _ _ E3) as (l3 & L3 & N3).
  split; [exact S3|]. split.
  - exists (l3 ++ l2 ++ l1), (ts_s s0). change (ts_s (flip s2)) with (ts_s s2) in L3. change (ts_s (flip s0)) with (ts_s s0) in L1. rewrite L3, L2, L1, <- !app_assoc. split; [reflexivity|].
    split; [destruct S0 as (_ & Q & _); exact Q|]. split; [|exists l0; exact L0]. destruct l3; [cbn in N3; lia|discriminate].
  - change (ts_d (flip s0)) with (ts_d s0) in M1. change (ts_d (flip s2)) with (ts_d s2) in M3. rewrite unitv_opp in M1. apply moved_opp in M1.
    assert (A1 := moved_trans _ _ _ _ _ _ _ _ _ _ _ _ M0 M1). assert (A2 := moved_trans _ _ _ _ _ _ _ _ _ _ _ _ M2 M3).
    exists (ts_d s1), (n0 + cp_nsteps c)%nat, (n2 + cp_nsteps c)%nat, (e0 + e1), (e2 + e3), (f0 + e1 * Rabs (ampl c / INR (cp_nsteps c) / cp_erate c)), (f2 + e3 * Rabs (ampl c / INR (cp_nsteps c) / cp_erate c)).
    split; [apply errors_add; assumption|]. split; [apply errors_add; assumption|].
    assert (T1 : INR (cp_nsteps c) * (ampl c / INR (cp_nsteps c) / cp_erate c) = ampl c / cp_erate c) by (unfold Rdiv; rewrite (Rmult_comm (ampl c)), !Rmult_assoc, <- Rmult_assoc, Rinv_r by lra; ring).
    assert (T2 : INR (cp_nsteps c) * (ampl c / INR (cp_nsteps c)) = ampl c) by (field; lra).
    rewrite T1, T2 in *. rewrite Rplus_0_l in A1, A2.
    assert (P0 := errors_nonneg _ _ _ W0). assert (P1 := errors_nonneg _ _ _ W1). assert (P2 := errors_nonneg _ _ _ W2). assert (P3 := errors_nonneg _ _ _ W3).
    split; [exact A1|]. split; [exact A2|]. assert (Q1 := ES e1 P1). assert (Q3 := ES e3 P3). assert (AP := Rabs_pos (ampl c / cp_erate c)).
    split; rewrite Rmult_plus_distr_r, !Rmult_plus_distr_l; nra.
Qed.

(** ** the summaries of cycles *)
Lemma lmax_spec : forall l m, (In (lmax l m) l \/ lmax l m = m) /\ m <= lmax l m /\ forall x, In x l -> x <= lmax l m.
Proof.
  induction l as [|a l IH]; intros m; cbn [lmax]; [split; [right; reflexivity|]; split; [lra|intros x []]|].
  destruct (IH (Rmax m a)) as (A & B & C). assert (M1 := Rmax_l m a). assert (M2 := Rmax_r m a). split.
  - destruct A as [A|A]; [left; right; exact A|]. unfold Rmax in A. rewrite A at 1 2. unfold Rmax. destruct (Rle_dec m a); [left; left; reflexivity|right; reflexivity].
  - split; [lra|]. intros x [<-|H]; [lra|apply C, H].
Qed.
Lemma lmin_spec : forall l m, (In (lmin l m) l \/ lmin l m = m) /\ lmin l m <= m /\ forall x, In x l -> lmin l m <= x.
Proof.
  induction l as [|a l IH]; intros m; cbn [lmin]; [split; [right; reflexivity|]; split; [lra|intros x []]|].
  destruct (IH (Rmin m a)) as (A & B & C). assert (M1 := Rmin_l m a). assert (M2 := Rmin_r m a). split.
  - destruct A as [A|A]; [left; right; exact A|]. unfold Rmin in A. rewrite A at 1 2. unfold Rmin. destruct (Rle_dec m a); [right; reflexivity|left; left; reflexivity].
  - split; [lra|]. intros x [<-|H]; [lra|apply C, H].
Qed.
Lemma pymax_greatest l : l <> [] -> greatest (pymax l) l.
Proof.
  destruct l as [|a l]; [congruence|]. intros _. cbn [pymax]. destruct (lmax_spec l a) as (A & B & C). split; [destruct A as [A|A]; [right; exact A|left; symmetry; exact A]|].
  intros x [<-|H]; [exact B|apply C, H].
Qed.
Lemma pymin_least l : l <> [] -> least (pymin l) l.
Proof.
  destruct l as [|a l]; [congruence|]. intros _. cbn [pymin]. destruct (lmin_spec l a) as (A & B & C). split; [destruct A as [A|A]; [right; exact A|left; symmetry; exact A]|].
  intros x [<-|H]; [exact B|apply C, H].
Qed.
Lemma since_app (l s : list R) : since (length s) (l ++ s) = l.
Proof. unfold since. rewrite app_length, Nat.add_sub. rewrite firstn_app, firstn_all, Nat.sub_diag. cbn [firstn]. apply app_nil_r. Qed.
Definition extends (st st' : tst) : Prop := exists l, ts_s st' = l ++ ts_s st.
Lemma ext_refl st : extends st st. Proof. exists []. reflexivity. Qed.
Lemma ext_trans a b c : extends a b -> extends b c -> extends a c.
Proof. intros (l & H) (m & K). exists (m ++ l). rewrite K, H, app_assoc. reflexivity. Qed.
Lemma pass_ext sdir dt dmg r st : extends st (fst (pass sdir dt dmg r st)).
Proof. unfold pass. destruct r as [[[d ei] a]|e]; [|apply ext_refl]. destruct (match dmg with Some _ => _ | None => false end); [exists []; reflexivity|]. exists [along (dv_stress d) sdir]. reflexivity. Qed.
Lemma passes_ext f : (forall st, extends st (fst (f st))) -> forall n st, extends st (fst (passes n f st)).
Proof.
  intros H. induction n as [|n IH]; intros st; cbn [passes]; [apply ext_refl|]. assert (E := H st). destruct (f st) as [s [x|]]; [exact E|]. eapply ext_trans; [exact E|apply IH].
Qed.
Lemma do_hold_ext M P c h st : extends st (fst (do_hold M P c h st)).
Proof. unfold do_hold. destruct (Rlt_dec 0 h); [|apply ext_refl]. apply passes_ext. intros. apply pass_ext. Qed.
Lemma ramp_ext M P sdir pull erate einc T dmg n st : extends st (fst (ramp M P sdir pull erate einc T dmg n st)).
Proof. apply passes_ext. intros. apply pass_ext. Qed.
Lemma andthen_ext st0 x f : extends st0 (fst x) -> (forall st, extends st (fst (f st))) -> extends st0 (fst (andthen x f)).
Proof. intros H K. destruct x as [s [y|]]; cbn [andthen]; [exact H|]. eapply ext_trans; [exact H|apply K]. Qed.
Lemma cycle_ext M P c st : extends st (fst (snd (one_cycle M P c st))).
Proof.
  unfold one_cycle. assert (H := do_hold_ext M P c (cp_hold0 c) st). destruct (do_hold M P c (cp_hold0 c) st) as [s0 [x|]]; [exact H|]. cbn [fst snd] in *.
  apply andthen_ext; [apply andthen_ext; [eapply ext_trans; [exact H|]|intros; apply do_hold_ext]|].
  - apply (ramp_ext M P (cp_sdir c) _ _ _ _ _ _ (flip s0)).
  - intros s. apply (ramp_ext M P (cp_sdir c) _ _ _ _ _ _ (flip s)).
Qed.
Lemma summary_ext st st' k : extends st st' -> summary (ts_s st) k -> summary (ts_s st') k.
Proof. intros (l & E) (a & ls & b & H & Q). exists (l ++ a), ls, b. rewrite E, H, <- app_assoc. split; [reflexivity|exact Q]. Qed.
Lemma cycles_sound M P c : cycle_ok c -> forall n s st cy st' cy', synced (cp_sdir c) st -> Forall (summary (ts_s st)) cy -> cycles M P c n s st cy = (st', cy') ->
  exists new, cy' = new ++ cy /\ (length new <= n)%nat /\ map cy_n new = rev (seq s (length new)) /\ Forall (summary (ts_s st')) cy' /\
    (length new = n -> synced (cp_sdir c) st' /\ exists N e f, errors P N e /\ f <= e * (cp_hold0 c + cp_hold1 c + 2 * Rabs (ampl c / cp_erate c)) /\
      moved (unitv (cp_sdir c)) 0 (INR n * period c) e f (ts_d st) (ts_d st')).
Proof.
  intros HC. induction n as [|n IH]; intros s st cy st' cy' HS HF H; cbn [cycles] in H.
  - injection H as <- <-. exists []. split; [reflexivity|]. split; [cbn; lia|]. split; [reflexivity|]. split; [exact HF|]. intros _. split; [exact HS|].
    exists 0%nat, 0, 0. split; [constructor|]. split; [rewrite Rmult_0_l; lra|]. cbn [INR]. rewrite Rmult_0_l. apply moved_refl.
  - assert (EX := cycle_ext M P c st). destruct (one_cycle M P c st) as [si [s1 [x|]]] eqn:E; cbn [fst snd] in EX.
    + injection H as <- <-. exists []. split; [reflexivity|]. split; [cbn; lia|]. split; [reflexivity|]. split; [|cbn; intros Q; discriminate].
      eapply Forall_impl; [|exact HF]. intros k. apply summary_ext, EX.
    + destruct (cycle_moves _ _ _ _ _ _ HC HS E) as (S1 & (ls & s0 & L1 & L2 & L3 & _) & dr & n1 & n2 & e1 & e2 & f1 & f2 & W1 & W2 & M1 & M2 & B1 & B2).
      rewrite <- L2, L1, since_app in H. 
      match type of H with cycles _ _ _ _ _ _ (?k :: cy) = _ => set (K := k) in * end.
      assert (HK : Forall (summary (ts_s s1)) (K :: cy)).
      { constructor; [|eapply Forall_impl; [|exact HF]; intros k; apply summary_ext, EX]. exists [], ls, s0. split; [exact L1|]. split; [apply pymax_greatest, L3|]. split; [apply pymin_least, L3|reflexivity]. }
      destruct (IH _ _ _ _ _ S1 HK H) as (new & -> & LN & NN & FN & DN). exists (new ++ [K]). rewrite <- app_assoc. split; [reflexivity|]. rewrite app_length. cbn [Datatypes.length]. split; [lia|].
      split; [rewrite map_app, NN; cbn [map]; rewrite Nat.add_1_r; cbn [seq rev]; reflexivity|]. split; [exact FN|].
      intros Q. destruct (DN ltac:(lia)) as (S2 & N & e & f & WN & BN & MN). split; [exact S2|].
      exists (n1 + n2 + N)%nat, (e1 + e2 + e), (f1 + f2 + f). split; [repeat apply errors_add; assumption|].
      assert (P1 := errors_nonneg _ _ _ W1). assert (P2 := errors_nonneg _ _ _ W2). assert (P3 := errors_nonneg _ _ _ WN). assert (AP := Rabs_pos (ampl c / cp_erate c)). destruct HC as (_ & _ & H0 & H1 & _).
      split; [nra|]. assert (A := moved_trans _ _ _ _ _ _ _ _ _ _ _ _ (moved_trans _ _ _ _ _ _ _ _ _ _ _ _ M1 M2) MN). rewrite S_INR.
      replace 0 with (- ampl c + ampl c + 0) by ring. replace ((INR n + 1) * period c) with (cp_hold0 c + ampl c / cp_erate c + (cp_hold1 c + ampl c / cp_erate c) + INR n * period c) by (unfold period; ring). exact A.
Qed.
Lemma cyclic_sound M P c ncycles st cy : cycle_ok c -> cp_emax c <> 0 -> strain_cyclic M P c ncycles = Ret (st, cy) ->
  (length cy <= ncycles)%nat /\ map cy_n cy = rev (seq 0 (length cy)) /\ Forall (summary (ts_s st)) cy /\
  (length cy = ncycles -> exists N e, errors P N e /\
    topr (ts_t st) = cp_emax c / cp_erate c + INR ncycles * period c /\
    Rabs (topr (ts_e st) - norm2 6 (cp_sdir c) * cp_emax c) <= norm2 6 (cp_sdir c) * (e * (Rabs (cp_emax c / cp_erate c) + cp_hold0 c + cp_hold1 c + 2 * Rabs (ampl c / cp_erate c)))).
Proof.
  intros HC HE H. assert (HC' := HC). destruct HC' as (Hn & Hnh & H0 & H1 & Hm & HN). assert (NI : 0 < INR (cp_nsteps c)) by (apply lt_0_INR; exact Hn). assert (NI1 : 1 <= INR (cp_nsteps c)) by (change 1 with (INR 1); apply le_INR; lia).
  assert (HI : cp_emax c / INR (cp_nsteps c) <> 0). { apply Rmult_integral_contrapositive_currified; [exact HE|]. apply Rinv_neq_0_compat. lra. }
  unfold strain_cyclic in H. destruct (ramp _ _ _ _ _ _ _ _ _ _) as [s0 [[x|]|]] eqn:E; [discriminate|discriminate|]. injection H as H.
  destruct (ramp_moves _ _ _ _ _ _ _ _ _ _ _ HI (synced_start _ _ _) E) as (S0 & _ & e0 & W0 & M0).
  destruct (cycles_sound _ _ _ HC _ _ _ _ _ _ S0 (Forall_nil _) H) as (new & -> & LN & NN & FN & DN). rewrite app_nil_r in *. split; [exact LN|]. split; [exact NN|]. split; [exact FN|].
  intros Q. destruct (DN Q) as (S1 & N & e & f & We & Be & Me). assert (A := moved_trans _ _ _ _ _ _ _ _ _ _ _ _ M0 Me).
  exists (cp_nsteps c + N)%nat, (e0 + e). split; [apply errors_add; assumption|]. destruct S1 as (_ & _ & _ & T1 & T2 & _). rewrite T1, T2. split.
  - destruct A as (A & _ & _). rewrite A. cbn [tst0 ts_d drv_init dv_t topr hd].
    replace (INR (cp_nsteps c) * (cp_emax c / INR (cp_nsteps c) / cp_erate c)) with (cp_emax c / cp_erate c); [ring|].
    assert (X : INR (cp_nsteps c) * / INR (cp_nsteps c) = 1) by (apply Rinv_r; lra). transitivity (INR (cp_nsteps c) * / INR (cp_nsteps c) * (cp_emax c / cp_erate c)); [rewrite X; ring|unfold Rdiv; ring].
  - assert (B := moved_along _ _ _ _ _ _ _ HN A). cbn [tst0 ts_d drv_init dv_strain] in B.
    assert (Z : along [v0] (cp_sdir c) = 0) by (unfold along, top, dot, v0; cbn [hd]; rewrite (rsum_ext 6 _ (fun _ => 0)) by (intros; ring); apply rsum_0).
    rewrite Z in B. replace (norm2 6 (cp_sdir c) * (INR (cp_nsteps c) * (cp_emax c / INR (cp_nsteps c)) + 0)) with (norm2 6 (cp_sdir c) * cp_emax c) in B by (field; lra).
    rewrite Rminus_0_r in B. eapply Rle_trans; [exact B|]. apply Rmult_le_compat_l; [lra|].
    assert (P0 := errors_nonneg _ _ _ W0). assert (P1 := errors_nonneg _ _ _ We). assert (AP := Rabs_pos (ampl c / cp_erate c)). assert (AQ := Rabs_pos (cp_emax c / cp_erate c)).
    assert (Y : Rabs (cp_emax c / INR (cp_nsteps c) / cp_erate c) <= Rabs (cp_emax c / cp_erate c)).
    { replace (cp_emax c / INR (cp_nsteps c) / cp_erate c) with (cp_emax c / cp_erate c * / INR (cp_nsteps c)) by (unfold Rdiv; ring). rewrite Rabs_mult. rewrite <- (Rmult_1_r (Rabs (cp_emax c / cp_erate c))) at 2.
      apply Rmult_le_compat_l; [apply Rabs_pos|]. rewrite Rabs_pos_eq by (left; apply Rinv_0_lt_compat, NI). rewrite <- Rinv_1. apply Rinv_le_contravar; lra. }
    assert (e0 * Rabs (cp_emax c / INR (cp_nsteps c) / cp_erate c) <= e0 * Rabs (cp_emax c / cp_erate c)) by (apply Rmult_le_compat_l; assumption). nra.
Qed.

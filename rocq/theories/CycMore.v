From Verif Require Import Base Diff.
From Verif Require Import SolverModel SubstepModel CreepModel NlModel NlSpec NlProofs UniModel UniSpec UniProofs DrvModel DrvSpec DrvProofs TestsModel TestsSpec TestsProofs TestsMore TestsCreep CycModel CycSpec CycProofs.
From Verif Require Import WalkerInv ElasticProofs.
From Coq Require Import ZArith String List FunctionalExtensionality.
Import ListNotations.

(** ** stress_cyclic *)
Lemma stressed_refl u d : stressed u 0 0 0 d d.
Proof.
  split; [ring|]. unfold norm2, dot. rewrite (rsum_ext 6 _ (fun _ => 0)) by (intros; ring). rewrite rsum_0, sqrt_0. lra.
Qed.
Lemma stressed_trans u a t e b s f d d1 d2 : stressed u a t e d d1 -> stressed u b s f d1 d2 -> stressed u (a + b) (t + s) (e + f) d d2.
Proof.
  intros (A1 & A2) (B1 & B2). split; [lra|]. eapply Rle_trans; [|apply Rplus_le_compat; [exact A2|exact B2]]. eapply Rle_trans; [|apply norm2_tri]. apply Req_le. unfold norm2, dot. f_equal. apply rsum_ext. intros. ring.
Qed.
(** the recorded lists are as long as the driver's, the last entries are the driver's *)
Definition ssync (sdir : vec) (st : tst) : Prop := synced sdir st.
Lemma stress_step_cons M P d s t T d' : stress_step M P d s t T = Ret d' -> (exists v t', dv_strain d' = v :: dv_strain d /\ dv_t d' = t' :: dv_t d) /\ topr (dv_t d') = t.
Proof. unfold stress_step. destruct (solve_try _ _ _ _) as [e|]; [|discriminate]. intros H. destruct (strain_step_parts _ _ _ _ _ _ _ H) as (r & _ & ->). split; [eexists _, _; split; reflexivity|reflexivity]. Qed.
Lemma sc_pass_ok sdir etol r st st' : sc_pass sdir etol r st = (st', false) -> exists d, r = Ret d /\ ts_d st' = d /\ norm2 6 (fun i => top (dv_strain d) i - nth 1 (dv_strain d) v0 i) <= etol /\
  ts_e st' = along (dv_strain d) sdir :: ts_e st /\ ts_s st' = along (dv_stress d) sdir :: ts_s st /\ ts_t st' = topr (dv_t d) :: ts_t st.
Proof.
  unfold sc_pass. destruct r as [d|]; [|discriminate]. destruct (Rlt_dec _ _) as [|N]; [discriminate|]. intros H. injection H as <-. exists d. split; [reflexivity|]. split; [reflexivity|]. split; [lra|]. repeat split.
Qed.
(** as many times as strains *)
Definition level (d : drv) : Prop := length (dv_t d) = length (dv_strain d).
(** n good passes of steps that move the stress by [inc] in a time [tm] *)
Lemma sc_passes_moves P c u inc tm (step : drv -> py drv) : 
  (forall d d', step d = Ret d' -> (exists v t', dv_strain d' = v :: dv_strain d /\ dv_t d' = t' :: dv_t d) /\ exists e r0, within P e r0 /\ stressed u inc tm e d d') ->
  forall n st st', synced (sp_sdir c) st -> sc_passes n (fun st => sc_pass (sp_sdir c) (sp_etol c) (step (ts_d st)) st) st = (st', false) ->
  synced (sp_sdir c) st' /\ (exists le, ts_e st' = le ++ ts_e st /\ length le = n) /\ (forall b, paced (sp_etol c) b (dv_strain (ts_d st)) -> paced (sp_etol c) b (dv_strain (ts_d st'))) /\ (level (ts_d st) -> level (ts_d st')) /\
  exists e, errors P n e /\ stressed u (INR n * inc) (INR n * tm) e (ts_d st) (ts_d st').
Proof.
  intros HStep. induction n as [|n IH]; intros st st' HS H.
  - cbn [sc_passes] in H. injection H as <-. split; [exact HS|]. split; [exists []; split; reflexivity|]. split; [intros b Hb; exact Hb|]. split; [auto|]. exists 0. split; [constructor|]. cbn [INR]. rewrite !Rmult_0_l. apply stressed_refl.
  - cbn [sc_passes] in H. destruct (sc_pass _ _ _ st) as [s1 [|]] eqn:E1; [discriminate|]. destruct (sc_pass_ok _ _ _ _ _ E1) as (d & Er & Ed & Hc & F1 & F2 & F3).
    destruct (HStep _ _ Er) as ((v & t' & L & LT) & e1 & r0 & W1 & M1). destruct HS as (A1 & A2 & A3 & A4 & A5 & A6).
    assert (S1 : synced (sp_sdir c) s1). { unfold synced. rewrite Ed, F1, F2, F3, L. cbn [Datatypes.length topr hd]. rewrite A1, A2, A3, LT. unfold along. rewrite ?L. repeat split. }
    destruct (IH _ _ S1 H) as (S2 & (le & G1 & G2) & Pc & Lv & e2 & W2 & M2). split; [exact S2|]. split; [exists (le ++ [along (dv_strain d) (sp_sdir c)]); rewrite G1, F1, <- app_assoc, app_length, G2; split; [reflexivity|cbn; lia]|].
    split.
    + intros b Hb. apply Pc. rewrite Ed, L. constructor; [exact Hb|]. rewrite L in Hc. cbn [top hd] in Hc. change (nth 1 (v :: dv_strain (ts_d st)) v0) with (nth 0 (dv_strain (ts_d st)) v0) in Hc.
      replace (nth 0 (dv_strain (ts_d st)) v0) with (top (dv_strain (ts_d st))) in Hc by (destruct (dv_strain (ts_d st)); reflexivity). exact Hc.
    + split; [intros Q; apply Lv; unfold level in *; rewrite Ed, L, LT; cbn [Datatypes.length]; congruence|]. exists (e2 + e1). split; [econstructor; eassumption|]. rewrite Ed in M2. assert (Q := stressed_trans _ _ _ _ _ _ _ _ _ _ M1 M2). rewrite S_INR.
      replace ((INR n + 1) * inc) with (inc + INR n * inc) by ring. replace ((INR n + 1) * tm) with (tm + INR n * tm) by ring. rewrite (Rplus_comm e2). exact Q.
Qed.
Lemma srate_stressed M P d sdir srate sinc T d' : allzero sdir = false -> 0 < norm2 6 sdir -> / 10 ^ 8 < Rabs srate -> srate_sinc_step M P d sdir srate sinc T = Ret d' ->
  (exists v t', dv_strain d' = v :: dv_strain d /\ dv_t d' = t' :: dv_t d) /\ exists e r0, within P e r0 /\ stressed (unitv sdir) sinc (norm2 6 sdir * (Rabs sinc / Rabs srate)) e d d'.
Proof.
  intros HZ HN HR H. split; [unfold srate_sinc_step in H; apply (stress_step_cons _ _ _ _ _ _ _ H)|]. destruct (srate_sound _ _ _ _ _ _ _ _ HZ H) as (A & e & r0 & W & B). rewrite (srate_time d sdir srate sinc HZ HN HR) in A.
  exists e, r0. split; [exact W|]. split; [exact A|]. eapply Rle_trans; [|exact B]. apply Req_le. unfold norm2, dot. f_equal. apply rsum_ext. intros. ring.
Qed.
Lemma keep_stressed M P d u dt T d' : stress_step M P d (top (dv_stress d)) (topr (dv_t d) + dt) T = Ret d' ->
  (exists v t', dv_strain d' = v :: dv_strain d /\ dv_t d' = t' :: dv_t d) /\ exists e r0, within P e r0 /\ stressed u 0 dt e d d'.
Proof.
  intros H. split; [apply (stress_step_cons _ _ _ _ _ _ _ H)|]. destruct (stress_step_sound _ _ _ _ _ _ _ H) as (A & _ & g & rg & _ & _ & W).
  exists (norm2 6 (fun i => top (dv_stress d') i - top (dv_stress d) i)), (norm2 6 (fun i => pr_s rg i - top (dv_stress d) i)). split; [exact W|]. split; [exact A|]. apply Req_le. unfold norm2, dot. f_equal. apply rsum_ext. intros. ring.
Qed.
(** what a part of a cycle does *)
Definition sc_part (P : dparams) (c : sparams2) (inc tm : R) (st st' : tst) : Prop :=
  synced (sp_sdir c) st' /\ (exists le, ts_e st' = le ++ ts_e st) /\ (forall b, paced (sp_etol c) b (dv_strain (ts_d st)) -> paced (sp_etol c) b (dv_strain (ts_d st'))) /\ (level (ts_d st) -> level (ts_d st')) /\
  exists n e, errors P n e /\ stressed (unitv (sp_sdir c)) inc tm e (ts_d st) (ts_d st').
Lemma sc_part_trans P c a t b s x y z : sc_part P c a t x y -> sc_part P c b s y z -> sc_part P c (a + b) (t + s) x z.
Proof.
  intros (_ & (l & L) & A1 & V1 & n & e & We & Me) (S2 & (k & K) & A2 & V2 & m & f & Wf & Mf). split; [exact S2|]. split; [exists (k ++ l); rewrite K, L, app_assoc; reflexivity|]. split; [auto|]. split; [auto|].
  exists (n + m)%nat, (e + f). split; [apply errors_add; assumption|]. eapply stressed_trans; eassumption.
Qed.
Lemma sc_ramp_moves M P c sinc st st' : stress_ok c -> synced (sp_sdir c) st -> sc_ramp M P c sinc st = (st', false) ->
  sc_part P c (INR (sp_nsteps c) * sinc) (INR (sp_nsteps c) * (norm2 6 (sp_sdir c) * (Rabs sinc / Rabs (sp_srate c)))) st st' /\ exists le, ts_e st' = le ++ ts_e st /\ length le = sp_nsteps c.
Proof.
  intros (_ & _ & _ & _ & HZ & HN & HR) HS H. unfold sc_ramp in H.
  destruct (sc_passes_moves P c (unitv (sp_sdir c)) sinc (norm2 6 (sp_sdir c) * (Rabs sinc / Rabs (sp_srate c))) (fun d => srate_sinc_step M P d (sp_sdir c) (sp_srate c) sinc (sp_T c))
    (fun d d' E => srate_stressed M P d _ _ _ _ d' HZ HN HR E) _ _ _ HS H) as (A & (le & B1 & B2) & C & V & e & D1 & D2).
  split; [|exists le; split; assumption]. split; [exact A|]. split; [exists le; exact B1|]. split; [exact C|]. split; [exact V|]. exists (sp_nsteps c), e. split; assumption.
Qed.
Lemma sc_hold_moves M P c h st st' : stress_ok c -> 0 <= h -> synced (sp_sdir c) st -> sc_hold M P c h st = (st', false) -> sc_part P c 0 h st st'.
Proof.
  intros HC Hh HS H. unfold sc_hold in H. destruct (Rlt_dec 0 h) as [L|L].
  - destruct (sc_passes_moves P c (unitv (sp_sdir c)) 0 (h / INR (sp_nhold c)) (fun d => stress_step M P d (top (dv_stress d)) (topr (dv_t d) + h / INR (sp_nhold c)) (sp_T c))
      (fun d d' E => keep_stressed M P d _ _ _ d' E) _ _ _ HS H) as (A & (le & B1 & B2) & C & V & e & D1 & D2).
    split; [exact A|]. split; [exists le; exact B1|]. split; [exact C|]. split; [exact V|]. exists (sp_nhold c), e. split; [exact D1|]. rewrite Rmult_0_r in D2.
    replace (INR (sp_nhold c) * (h / INR (sp_nhold c))) with h in D2 by (field; apply not_0_INR; destruct HC as (_ & HC & _); lia). exact D2.
  - injection H as <-. assert (h = 0) as -> by lra. split; [exact HS|]. split; [exists []; reflexivity|]. split; [auto|]. split; [auto|]. exists 0%nat, 0. split; [constructor|apply stressed_refl].
Qed.
Lemma n_time n N a s : 0 < n -> n * (N * (Rabs (a / n) / s)) = N * (Rabs a / s).
Proof.
  intros Hn. unfold Rdiv at 2. rewrite Rabs_mult, (Rabs_pos_eq (/ n)) by (left; apply Rinv_0_lt_compat, Hn).
  assert (X : n * / n = 1) by (apply Rinv_r; lra). unfold Rdiv. replace (n * (N * (Rabs a * / n * / s))) with (n * / n * (N * (Rabs a * / s))) by ring. rewrite X. ring.
Qed.
Lemma sc_cycle_moves M P c st st' : stress_ok c -> synced (sp_sdir c) st -> sc_cycle M P c st = (st', false) ->
  sc_part P c 0 (sc_period c) st st' /\ exists le, ts_e st' = le ++ ts_e st /\ le <> [].
Proof.
  intros HC HS H. assert (HC' := HC). destruct HC' as (Hn & _ & H0 & H1 & _). assert (NI : 0 < INR (sp_nsteps c)) by (apply lt_0_INR, Hn).
  unfold sc_cycle in H. set (smin := sp_smax c * sp_R c) in *.
  destruct (sc_hold M P c (sp_hold0 c) st) as [s0 [|]] eqn:E0; cbn [sc_then] in H; [discriminate|]. assert (M0 := sc_hold_moves _ _ _ _ _ _ HC H0 HS E0).
  destruct (sc_ramp M P c _ s0) as [s1 [|]] eqn:E1; cbn [sc_then] in H; [discriminate|]. destruct (sc_ramp_moves _ _ _ _ _ _ HC (proj1 M0) E1) as (M1 & _).
  destruct (sc_hold M P c (sp_hold1 c) s1) as [s2 [|]] eqn:E2; cbn [sc_then] in H; [discriminate|]. assert (M2 := sc_hold_moves _ _ _ _ _ _ HC H1 (proj1 M1) E2).
  destruct (sc_ramp_moves _ _ _ _ _ _ HC (proj1 M2) H) as (M3 & (l3 & L3 & N3)).
  assert (A := sc_part_trans _ _ _ _ _ _ _ _ _ (sc_part_trans _ _ _ _ _ _ _ _ _ (sc_part_trans _ _ _ _ _ _ _ _ _ M0 M1) M2) M3).
  split.
  - match type of A with sc_part _ _ ?x ?t _ _ => replace 0 with x by (field; lra); replace (sc_period c) with t; [exact A|] end.
    unfold sc_period. fold smin. rewrite !n_time by exact NI. rewrite (Rabs_minus_sym smin). ring.
  - destruct M2 as (_ & (l2 & L2) & _). destruct M1 as (_ & (l1 & L1) & _). destruct M0 as (_ & (l0 & L0) & _). exists (l3 ++ l2 ++ l1 ++ l0). rewrite L3, L2, L1, L0, <- !app_assoc. split; [reflexivity|]. destruct l3; [cbn in N3; lia|discriminate].
Qed.
Definition extends_e (st st' : tst) : Prop := exists l, ts_e st' = l ++ ts_e st.
Lemma exte_refl st : extends_e st st. Proof. exists []. reflexivity. Qed.
Lemma exte_trans a b c : extends_e a b -> extends_e b c -> extends_e a c.
Proof. intros (l & L) (k & K). exists (k ++ l). rewrite K, L, app_assoc. reflexivity. Qed.
Lemma sc_pass_ext sdir etol r st : extends_e st (fst (sc_pass sdir etol r st)).
Proof. unfold sc_pass. destruct r as [d|]; [|apply exte_refl]. destruct (Rlt_dec _ _); [exists []; reflexivity|]. exists [along (dv_strain d) sdir]. reflexivity. Qed.
Lemma sc_passes_ext f : (forall st, extends_e st (fst (f st))) -> forall n st, extends_e st (fst (sc_passes n f st)).
Proof. intros H. induction n as [|n IH]; intros st; cbn [sc_passes]; [apply exte_refl|]. assert (E := H st). destruct (f st) as [s [|]]; [exact E|]. eapply exte_trans; [exact E|apply IH]. Qed.
Lemma sc_then_ext st0 x f : extends_e st0 (fst x) -> (forall st, extends_e st (fst (f st))) -> extends_e st0 (fst (sc_then x f)).
Proof. intros H K. destruct x as [s [|]]; cbn [sc_then]; [exact H|]. eapply exte_trans; [exact H|apply K]. Qed.
Lemma sc_cycle_ext M P c st : extends_e st (fst (sc_cycle M P c st)).
Proof.
  assert (HR : forall x s, extends_e s (fst (sc_ramp M P c x s))) by (intros; apply sc_passes_ext; intros; apply sc_pass_ext).
  assert (HH : forall h s, extends_e s (fst (sc_hold M P c h s))) by (intros h s; unfold sc_hold; destruct (Rlt_dec 0 h); [apply sc_passes_ext; intros; apply sc_pass_ext|apply exte_refl]).
  unfold sc_cycle. repeat (apply sc_then_ext; [|intros; auto]). apply HH.
Qed.
Lemma summary_exte st st' k : extends_e st st' -> summary (ts_e st) k -> summary (ts_e st') k.
Proof. intros (l & E) (a & ls & b & H & Q). exists (l ++ a), ls, b. rewrite E, H, <- app_assoc. split; [reflexivity|exact Q]. Qed.
Lemma sc_cycles_sound M P c : stress_ok c -> forall n s st cy st' cy', synced (sp_sdir c) st -> Forall (summary (ts_e st)) cy -> sc_cycles M P c n s st cy = (st', cy') ->
  exists new, cy' = new ++ cy /\ (length new <= n)%nat /\ map cy_n new = rev (seq s (length new)) /\ Forall (summary (ts_e st')) cy' /\ (length new = n -> sc_part P c 0 (INR n * sc_period c) st st').
Proof.
  intros HC. induction n as [|n IH]; intros s st cy st' cy' HS HF H; cbn [sc_cycles] in H.
  - injection H as <- <-. exists []. split; [reflexivity|]. split; [cbn; lia|]. split; [reflexivity|]. split; [exact HF|]. intros _. split; [exact HS|]. split; [exists []; reflexivity|]. split; [auto|]. split; [auto|].
    exists 0%nat, 0. split; [constructor|]. cbn [INR]. rewrite Rmult_0_l. apply stressed_refl.
  - assert (EX := sc_cycle_ext M P c st). destruct (sc_cycle M P c st) as [s1 [|]] eqn:EC; cbn [fst] in EX.
    + injection H as <- <-. exists []. split; [reflexivity|]. split; [cbn; lia|]. split; [reflexivity|]. split; [|cbn; intros Q; discriminate].
      eapply Forall_impl; [|exact HF]. intros k. apply summary_exte, EX.
    + destruct (sc_cycle_moves _ _ _ _ _ HC HS EC) as (M1 & (le & L1 & L3)). destruct HS as (A1 & _). rewrite <- A1, L1, since_app in H.
      match type of H with sc_cycles _ _ _ _ _ _ (?k :: cy) = _ => set (K := k) in * end.
      assert (HK : Forall (summary (ts_e s1)) (K :: cy)).
      { constructor; [|eapply Forall_impl; [|exact HF]; intros k; apply summary_exte, EX]. exists [], le, (ts_e st). split; [exact L1|]. split; [apply pymax_greatest, L3|]. split; [apply pymin_least, L3|reflexivity]. }
      destruct (IH _ _ _ _ _ (proj1 M1) HK H) as (new & -> & LN & NN & FN & DN). exists (new ++ [K]). rewrite <- app_assoc. split; [reflexivity|]. rewrite app_length. cbn [Datatypes.length]. split; [lia|].
      split; [rewrite map_app, NN; cbn [map]; rewrite Nat.add_1_r; cbn [seq rev]; reflexivity|]. split; [exact FN|].
      intros Q. assert (A := sc_part_trans _ _ _ _ _ _ _ _ _ M1 (DN ltac:(lia))). rewrite S_INR. replace 0 with (0 + 0) by ring. replace ((INR n + 1) * sc_period c) with (sc_period c + INR n * sc_period c) by ring. exact A.
Qed.
Lemma sc_up M P sdir srate sinc T : allzero sdir = false -> 0 < norm2 6 sdir -> / 10 ^ 8 < Rabs srate -> forall n st, Nat.iter n (creep_up M P sdir srate sinc T) (Ret (tst0 M T)) = Ret st ->
  synced sdir st /\ level (ts_d st) /\ exists e, errors P n e /\ stressed (unitv sdir) (INR n * sinc) (INR n * (norm2 6 sdir * (Rabs sinc / Rabs srate))) e (drv_init M T) (ts_d st).
Proof.
  intros HZ HN HR. induction n as [|n IH]; intros st H.
  - cbn [Nat.iter nat_rect] in H. injection H as <-. split; [apply synced_start|]. split; [reflexivity|]. exists 0. split; [constructor|]. cbn [INR]. rewrite !Rmult_0_l. apply stressed_refl.
  - cbn [Nat.iter nat_rect] in H. fold (Nat.iter n (creep_up M P sdir srate sinc T) (Ret (tst0 M T))) in H. destruct (Nat.iter n _ _) as [s|x] eqn:E; [|discriminate]. cbn [creep_up] in H.
    destruct (srate_sinc_step _ _ _ _ _ _ _) as [d|x] eqn:ES; [|discriminate]. injection H as <-. destruct (IH s eq_refl) as ((A1 & A2 & A3 & A4 & A5 & A6) & V & e & We & Me).
    destruct (srate_stressed _ _ _ _ _ _ _ _ HZ HN HR ES) as ((v & t' & L & LT) & e1 & r0 & W1 & M1). cbn [ts_d]. split.
    + unfold synced. cbn [ts_d ts_e ts_s ts_t]. rewrite L. cbn [Datatypes.length topr hd]. rewrite A1, A2, A3, LT. unfold along. rewrite ?L. repeat split.
    + split; [unfold level in *; rewrite L, LT; cbn [Datatypes.length]; congruence|]. exists (e + e1). split; [econstructor; eassumption|]. rewrite S_INR. assert (Q := stressed_trans _ _ _ _ _ _ _ _ _ _ Me M1).
      replace ((INR n + 1) * sinc) with (INR n * sinc + sinc) by ring. replace ((INR n + 1) * (norm2 6 sdir * (Rabs sinc / Rabs srate))) with (INR n * (norm2 6 sdir * (Rabs sinc / Rabs srate)) + norm2 6 sdir * (Rabs sinc / Rabs srate)) by ring. exact Q.
Qed.
Lemma stress_cyclic_sound M P c ncycles st cy : stress_ok c -> stress_cyclic M P c ncycles = Ret (st, cy) ->
  (length cy <= ncycles)%nat /\ map cy_n cy = rev (seq 0 (length cy)) /\ Forall (summary (ts_e st)) cy /\
  (length cy = ncycles -> length (ts_e st) = length (dv_t (ts_d st)) /\ topr (ts_t st) = topr (dv_t (ts_d st)) /\
    topr (dv_t (ts_d st)) = norm2 6 (sp_sdir c) * (Rabs (sp_smax c) / Rabs (sp_srate c)) + INR ncycles * sc_period c /\
    (exists up, length up = S (sp_nsteps c) /\ paced (sp_etol c) up (dv_strain (ts_d st))) /\
    exists N e, errors P N e /\ norm2 6 (fun i => top (dv_stress (ts_d st)) i - sp_smax c * unitv (sp_sdir c) i) <= e).
Proof.
  intros HC H. assert (HC' := HC). destruct HC' as (Hn & _ & _ & _ & HZ & HN & HR). assert (NI : 0 < INR (sp_nsteps c)) by (apply lt_0_INR, Hn).
  unfold stress_cyclic in H. destruct (Nat.iter _ _ _) as [s0|x] eqn:E; [|discriminate]. injection H as H.
  assert (LU := proj2 (up_sync _ _ _ _ _ _ _ _ E)). destruct (sc_up _ _ _ _ _ _ HZ HN HR _ _ E) as (S0 & V0 & e0 & W0 & M0).
  destruct (sc_cycles_sound _ _ _ HC _ _ _ _ _ _ S0 (Forall_nil _) H) as (new & -> & LN & NN & FN & DN). rewrite app_nil_r in *. split; [exact LN|]. split; [exact NN|]. split; [exact FN|].
  intros Q. destruct (DN Q) as (S1 & _ & Pc & V & n & e & We & Me). destruct (stressed_trans _ _ _ _ _ _ _ _ _ _ M0 Me) as [T1 D1]. destruct S1 as (A1 & _ & _ & A4 & _).
  split; [rewrite A1; symmetry; apply V, V0|]. split; [exact A4|]. split.
  - rewrite T1. cbn [drv_init dv_t topr hd]. rewrite n_time by exact NI. ring.
  - split; [exists (dv_strain (ts_d s0)); split; [destruct S0 as (S0 & _); rewrite <- S0; exact LU|apply Pc; constructor]|].
    exists (sp_nsteps c + n)%nat, (e0 + e). split; [apply errors_add; assumption|]. eapply Rle_trans; [|exact D1]. apply Req_le. unfold norm2, dot. f_equal. apply rsum_ext. intros i Hi. cbn [drv_init dv_stress top hd]. unfold v0. field. lra.
Qed.

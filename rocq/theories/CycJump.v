From Verif Require Import Base Diff.
From Verif Require Import SolverModel SubstepModel CreepModel NlModel NlSpec NlProofs UniModel UniSpec UniProofs DrvModel DrvSpec DrvProofs TestsModel TestsSpec TestsProofs TestsMore CycModel CycSpec CycProofs.
From Verif Require Import WalkerInv ElasticProofs.
From Coq Require Import ZArith String List Sorted FunctionalExtensionality.
Import ListNotations.

(** ** rate_jump_test *)
Lemma synced_fresh sdir st : synced sdir st -> synced sdir (fresh st).
Proof. intros H. exact H. Qed.
Lemma jumps_sound M P sdir eper T n : eper <> 0 -> (0 < n)%nat -> 0 < norm2 6 sdir -> forall rates st st', synced sdir st -> jumps M P sdir eper T n rates st = Ret st' ->
  synced sdir st' /\ topr (ts_t st') = topr (ts_t st) + total (map (fun r => eper / r) rates) /\
  exists N e, errors P N e /\ Rabs (topr (ts_e st') - topr (ts_e st) - norm2 6 sdir * (INR (length rates) * eper)) <= norm2 6 sdir * (e * total (map (fun r => Rabs (eper / r)) rates)).
Proof.
  intros HE Hn HN. assert (NI : 0 < INR n) by (apply lt_0_INR, Hn). assert (NI1 : 1 <= INR n) by (change 1 with (INR 1); apply le_INR; lia).
  assert (HI : eper / INR n <> 0) by (apply Rmult_integral_contrapositive_currified; [exact HE|apply Rinv_neq_0_compat; lra]).
  induction rates as [|r rates IH]; intros st st' HS H; cbn [jumps] in H.
  - injection H as <-. split; [exact HS|]. cbn [map total Datatypes.length INR]. split; [ring|]. exists 0%nat, 0. split; [constructor|]. replace (topr (ts_e st) - topr (ts_e st) - norm2 6 sdir * (0 * eper)) with 0 by ring. rewrite Rabs_R0. lra.
  - destruct (ramp _ _ _ _ _ _ _ _ _ _) as [s1 [[x|]|]] eqn:ER; try discriminate.
    destruct (ramp_moves _ _ _ _ _ _ _ _ _ _ _ HI (synced_fresh _ _ HS) ER) as (S1 & _ & e1 & W1 & M1). change (ts_d (fresh st)) with (ts_d st) in M1.
    destruct (IH _ _ S1 H) as (S2 & T2 & N & e & We & Be). split; [exact S2|]. cbn [map total]. 
    assert (TR : INR n * (eper / INR n / r) = eper / r). { assert (X : INR n * / INR n = 1) by (apply Rinv_r; lra). transitivity (INR n * / INR n * (eper / r)); [unfold Rdiv; ring|rewrite X; ring]. }
    destruct HS as (_ & _ & _ & A4 & A5 & _). destruct S1 as (_ & _ & _ & B4 & B5 & _). split.
    + rewrite T2, B4, A4. destruct M1 as (M1 & _). rewrite M1, TR. ring.
    + exists (n + N)%nat, (e1 + e). split; [apply errors_add; assumption|]. assert (Q := moved_along _ _ _ _ _ _ _ HN M1). rewrite <- A5, <- B5 in Q.
      replace (INR n * (eper / INR n)) with eper in Q by (field; lra). change (Datatypes.length (r :: rates)) with (S (length rates)). rewrite S_INR.
      replace (topr (ts_e st') - topr (ts_e st) - norm2 6 sdir * ((INR (length rates) + 1) * eper)) with ((topr (ts_e s1) - topr (ts_e st) - norm2 6 sdir * eper) + (topr (ts_e st') - topr (ts_e s1) - norm2 6 sdir * (INR (length rates) * eper))) by ring.
      eapply Rle_trans; [apply Rabs_triang|]. eapply Rle_trans; [apply Rplus_le_compat; [exact Q|exact Be]|]. rewrite <- Rmult_plus_distr_l. apply Rmult_le_compat_l; [lra|].
      assert (P1 := errors_nonneg _ _ _ W1). assert (P2 := errors_nonneg _ _ _ We).
      assert (TP : forall l, 0 <= total (map (fun r => Rabs (eper / r)) l)) by (induction l as [|y l IHl]; cbn [map total]; [lra|assert (AP := Rabs_pos (eper / y)); lra]). specialize (TP rates).
      assert (Y : Rabs (eper / INR n / r) <= Rabs (eper / r)).
      { replace (eper / INR n / r) with (eper / r * / INR n) by (unfold Rdiv; ring). rewrite Rabs_mult. rewrite <- (Rmult_1_r (Rabs (eper / r))) at 2.
        apply Rmult_le_compat_l; [apply Rabs_pos|]. rewrite Rabs_pos_eq by (left; apply Rinv_0_lt_compat, NI). rewrite <- Rinv_1. apply Rinv_le_contravar; lra. }
      assert (e1 * Rabs (eper / INR n / r) <= e1 * Rabs (eper / r)) by (apply Rmult_le_compat_l; assumption). assert (0 <= e1 * total (map (fun r => Rabs (eper / r)) rates)) by (apply Rmult_le_pos; assumption).
      assert (0 <= e * Rabs (eper / r)) by (apply Rmult_le_pos; [assumption|apply Rabs_pos]). lra.
Qed.
Lemma rate_jump_sound fuel M P sdir rates T eper n st : eper <> 0 -> (0 < n)%nat -> 0 < norm2 6 sdir -> rate_jump fuel M P sdir rates T eper n None = Ret st ->
  topr (ts_t st) = total (map (fun r => eper / r) rates) /\
  exists N e, errors P N e /\ Rabs (topr (ts_e st) - norm2 6 sdir * (INR (length rates) * eper)) <= norm2 6 sdir * (e * total (map (fun r => Rabs (eper / r)) rates)).
Proof.
  intros HE Hn HN H. cbn [rate_jump] in H. destruct (jumps_sound _ _ _ _ _ _ HE Hn HN _ _ _ (synced_start _ _ _) H) as (_ & A & N & e & We & B). cbn [tst0 ts_t ts_e topr hd] in A, B.
  split; [rewrite A; ring|]. exists N, e. split; [exact We|]. rewrite Rminus_0_r in B. exact B.
Qed.
(** with given strains: a segment ends at its strain or beyond, by no more than a step *)
Lemma while_sound M P sdir erate inc e T : inc <> 0 -> 0 < norm2 6 sdir -> forall fuel st st', topr (ts_e st) = along (dv_strain (ts_d st)) sdir -> jump_while fuel M P sdir erate inc e T st = Ret st' ->
  topr (ts_e st') = along (dv_strain (ts_d st')) sdir /\ e <= topr (ts_e st') /\
  (st' = st \/ topr (ts_e st) < e /\ exists r r0, within P r r0 /\ topr (ts_e st') <= e + norm2 6 sdir * (inc + r * Rabs (inc / erate))).
Proof.
  intros HI HN. induction fuel as [|fuel IH]; intros st st' HS H; cbn [jump_while] in H.
  - destruct (Rlt_dec _ _); [discriminate|]. injection H as <-. split; [exact HS|]. split; [lra|]. left. reflexivity.
  - destruct (Rlt_dec _ _) as [L|L].
    + destruct (erate_einc_step _ _ _ _ _ _ _ _ _) as [[[d ei] a]|x] eqn:ES; [|discriminate]. destruct (einc_moves _ _ _ _ _ _ _ _ _ _ _ _ HI ES) as (r & r0 & W & Mv).
      match type of H with jump_while _ _ _ _ _ _ _ _ ?s = _ => set (s1 := s) in * end. destruct (IH s1 st' eq_refl H) as (A & B & C). split; [exact A|]. split; [exact B|]. right. split; [exact L|].
      destruct C as [->|[_ C]]; [|exact C]. exists r, r0. split; [exact W|]. assert (Q := moved_along _ _ _ _ _ _ _ HN Mv). rewrite <- HS in Q. unfold s1. cbn [ts_e topr hd].
      assert (Q1 := Rle_abs (along (dv_strain d) sdir - topr (ts_e st) - norm2 6 sdir * inc)). lra.
    + injection H as <-. split; [exact HS|]. split; [lra|]. left. reflexivity.
Qed.
Lemma while_skips fuel M P sdir erate inc e T st : e <= topr (ts_e st) -> jump_while fuel M P sdir erate inc e T st = Ret st.
Proof. intros H. destruct fuel; cbn [jump_while]; destruct (Rlt_dec _ _); try lra; reflexivity. Qed.
Lemma last_next : forall (l : list R) e d, last (e :: l) d = last l e.
Proof. induction l as [|a l IH]; intros e d; [reflexivity|]. change (last (e :: a :: l) d) with (last (a :: l) d). rewrite !IH. reflexivity. Qed.
(** the strains reached, one per segment *)
Lemma jumps_to_sound M P sdir T n : (0 < n)%nat -> 0 < norm2 6 sdir -> forall l fuel prev st st', StronglySorted Rlt (prev :: map fst l) -> topr (ts_e st) = along (dv_strain (ts_d st)) sdir -> prev <= topr (ts_e st) ->
  jumps_to fuel M P sdir T n prev l st = Ret st' -> last (map fst l) prev <= topr (ts_e st').
Proof.
  intros Hn HN. assert (NI : 0 < INR n) by (apply lt_0_INR, Hn). induction l as [|[e r] l IH]; intros fuel prev st st' HM HS HP H; cbn [jumps_to] in *; cbn [map fst] in *.
  - injection H as <-. exact HP.
  - destruct (jump_while _ _ _ _ _ _ _ _ st) as [s1|x] eqn:EW; [|discriminate]. inversion HM as [|? ? HM1 HM2]; subst. inversion HM2 as [|? ? HLt _]; subst.
    assert (HI : (e - prev) / INR n <> 0) by (apply Rgt_not_eq, Rdiv_lt_0_compat; lra).
    destruct (while_sound _ _ _ _ _ _ _ HI HN _ _ _ HS EW) as (A & B & _). assert (Q := IH _ _ _ _ HM1 A B H). rewrite last_next. exact Q.
Qed.

(** ** strain_cyclic_extrapolated *)
Definition grown (n : nat) (tm : R) (st st' : tst) : Prop :=
  (exists ls, ts_s st' = ls ++ ts_s st /\ length ls = n) /\ length (dv_strain (ts_d st')) = (n + length (dv_strain (ts_d st)))%nat /\ topr (ts_t st') = topr (ts_t st) + tm /\
  (exists l, dv_stored (ts_d st') = l ++ dv_stored (ts_d st) /\ length l = n) /\ (exists l, dv_stress (ts_d st') = l ++ dv_stress (ts_d st) /\ length l = n).
Lemma grown_refl st : grown 0 0 st st.
Proof. split; [exists []; split; reflexivity|]. split; [reflexivity|]. split; [ring|]. split; exists []; split; reflexivity. Qed.
Lemma grown_trans n m t s a b c : grown n t a b -> grown m s b c -> grown (n + m) (t + s) a c.
Proof.
  intros ((l1 & L1 & N1) & A2 & A3 & (l4 & L4 & N4) & (l5 & L5 & N5)) ((k1 & K1 & O1) & B2 & B3 & (k4 & K4 & O4) & (k5 & K5 & O5)).
  split; [exists (k1 ++ l1); rewrite K1, L1, app_assoc, app_length; split; [reflexivity|lia]|]. split; [lia|]. split; [lra|].
  split; [exists (k4 ++ l4); rewrite K4, L4, app_assoc, app_length; split; [reflexivity|lia]|exists (k5 ++ l5); rewrite K5, L5, app_assoc, app_length; split; [reflexivity|lia]].
Qed.
Lemma pass_grown M P sdir dt dmg pull erate t1 T ge ga st st' : pass sdir dt dmg (erate_step M P (ts_d st) pull erate t1 T ge ga) st = (st', None) -> grown 1 dt st st'.
Proof.
  intros H. destruct (pass_ok _ _ _ _ _ _ H) as (d & ei & a & Er & Ed & E1 & E2 & E3). unfold erate_step in Er. destruct (solve_try _ _ _ _) as [x|]; [|discriminate].
  destruct (strain_step _ _ _ _ _ _) as [d1|] eqn:ES; [|discriminate]. injection Er as -> _ _. destruct (strain_step_parts _ _ _ _ _ _ _ ES) as (r & _ & ED).
  unfold grown. rewrite Ed, ED, E2, E3. cbn [dv_strain dv_stored dv_stress Datatypes.length topr hd]. split; [eexists [_]; split; reflexivity|]. split; [reflexivity|]. split; [reflexivity|]. split; eexists [_]; split; reflexivity.
Qed.
Lemma passes_grown f dt : (forall st st', f st = (st', None) -> grown 1 dt st st') -> forall n st st', passes n f st = (st', None) -> grown n (INR n * dt) st st'.
Proof.
  intros HF n st st' H. refine (passes_induct (fun n a b => grown n (INR n * dt) a b) f _ _ n st st' H).
  - intros s. cbn [INR]. rewrite Rmult_0_l. apply grown_refl.
  - intros k a b c0 HA HB. rewrite S_INR. replace ((INR k + 1) * dt) with (dt + INR k * dt) by ring. exact (grown_trans 1 k _ _ _ _ _ (HF _ _ HA) HB).
Qed.
Lemma ramp_grown M P sdir pull erate einc T dmg n st st' : ramp M P sdir pull erate einc T dmg n st = (st', None) -> grown n (INR n * (einc / erate)) st st'.
Proof.
  apply passes_grown. intros a b H. destruct (pass_ok _ _ _ _ _ _ H) as (d & ei & x & Er & _). unfold erate_einc_step in *. destruct (Req_EM_T erate 0); [discriminate|]. eapply pass_grown, H.
Qed.
Lemma hold_grown M P c h st st' : (0 < cp_nhold c)%nat -> 0 <= h -> do_hold M P c h st = (st', None) -> grown (if Rlt_dec 0 h then cp_nhold c else 0) h st st'.
Proof.
  intros Hn Hh H. unfold do_hold in H. destruct (Rlt_dec 0 h) as [L|L].
  - unfold hold in H. assert (G := passes_grown _ (h / INR (cp_nhold c)) (fun a b E => pass_grown _ _ _ _ _ _ _ _ _ _ _ _ _ E) _ _ _ H).
    replace (INR (cp_nhold c) * (h / INR (cp_nhold c))) with h in G by (field; apply not_0_INR; lia). exact G.
  - injection H as <-. assert (h = 0) as -> by lra. apply grown_refl.
Qed.
Lemma grown_flip n tm st st' : grown n tm (flip st) st' -> grown n tm st st'.
Proof. intros H. exact H. Qed.
Lemma xsteps_count c : cycle_ok c -> xsteps c = ((if Rlt_dec 0 (cp_hold0 c) then cp_nhold c else 0) + cp_nsteps c + (if Rlt_dec 0 (cp_hold1 c) then cp_nhold c else 0) + cp_nsteps c)%nat.
Proof.
  intros (_ & _ & H0 & H1 & _). unfold xsteps, rlt. destruct (Rlt_dec 0 (cp_hold0 c)), (Rlt_dec 0 (cp_hold1 c)); destruct (Req_EM_T (cp_hold1 c) 0); destruct (Req_EM_T (cp_hold0 c) 0); cbn [andb]; try lra; lia.
Qed.
Lemma cycle_grown M P c st si st' : cycle_ok c -> one_cycle M P c st = (si, (st', None)) -> grown (xsteps c) (period c) st st' /\
  (length (ts_s st) = length (dv_strain (ts_d st)) -> exists ls s0, ts_s st' = ls ++ s0 /\ length s0 = si /\ ls <> []).
Proof.
  intros HC H. rewrite (xsteps_count c HC). destruct HC as (Hn & Hnh & H0 & H1 & Hm & _). assert (NI : 0 < INR (cp_nsteps c)) by (apply lt_0_INR; exact Hn).
  assert (EA : Rabs (cp_emax c - cp_emax c * cp_R c) = ampl c) by (unfold ampl; rewrite <- Rabs_Ropp; f_equal; ring).
  unfold one_cycle in H. fold (ampl c) in H. rewrite EA in H. destruct (do_hold M P c (cp_hold0 c) st) as [s0 [x|]] eqn:E0; [congruence|]. assert (G0 := hold_grown _ _ _ _ _ _ Hnh H0 E0).
  destruct (ramp M P (cp_sdir c) (vopp (cp_sdir c)) (cp_erate c) (ampl c / INR (cp_nsteps c)) (cp_T c) (cp_dmg c) (cp_nsteps c) (flip s0)) as [s1 [x|]] eqn:E1; cbn [andthen] in H; [congruence|].
  assert (G1 := grown_flip _ _ _ _ (ramp_grown _ _ _ _ _ _ _ _ _ _ _ E1)).
  destruct (do_hold M P c (cp_hold1 c) s1) as [s2 [x|]] eqn:E2; cbn [andthen] in H; [congruence|]. assert (G2 := hold_grown _ _ _ _ _ _ Hnh H1 E2).
  injection H as <- E3. assert (G3 := grown_flip _ _ _ _ (ramp_grown _ _ _ _ _ _ _ _ _ _ _ E3)).
  assert (T1 : INR (cp_nsteps c) * (ampl c / INR (cp_nsteps c) / cp_erate c) = ampl c / cp_erate c) by (unfold Rdiv; rewrite (Rmult_comm (ampl c)), !Rmult_assoc, <- Rmult_assoc, Rinv_r by lra; ring).
  rewrite T1 in *. split.
  - assert (G := grown_trans _ _ _ _ _ _ _ (grown_trans _ _ _ _ _ _ _ (grown_trans _ _ _ _ _ _ _ G0 G1) G2) G3).
    replace (period c) with (cp_hold0 c + ampl c / cp_erate c + cp_hold1 c + ampl c / cp_erate c) by (unfold period; ring). exact G.
  - intros HL. destruct (grown_trans _ _ _ _ _ _ _ (grown_trans _ _ _ _ _ _ _ G1 G2) G3) as ((ls & L & N) & _). exists ls, (ts_s s0). split; [exact L|].
    destruct G0 as ((l0 & L0 & N0) & D0 & _). split; [rewrite L0, app_length, D0; lia|]. destruct ls; [cbn in N; lia|discriminate].
Qed.
Lemma xtrace_ext p a l s : xtrace p s l -> xtrace p (a ++ s) l.
Proof.
  induction 1 as [|k l H IH HN HL (u & ls & b & E & HG)|k c1 c0 b l H IH H1 H2 H3 H4 H5]; [constructor| |constructor; assumption].
  constructor; [exact IH|exact HN|exact HL|]. exists (a ++ u), ls, b. rewrite E, <- app_assoc. split; [reflexivity|exact HG].
Qed.
(** the state of the loop after some passes *)
Definition x_inv (p : xparams) (x : xstate) (tags : list bool) : Prop :=
  let c := xp_c p in length tags = length (x_cy x) /\ xtrace p (ts_s (x_st x)) (combine (x_cy x) tags) /\ last_n (combine (x_cy x) tags) = x_s x /\
  length (ts_s (x_st x)) = length (dv_strain (ts_d (x_st x))) /\ topr (ts_t (x_st x)) = cp_emax c / cp_erate c + INR (computed (combine (x_cy x) tags)) * period c /\
  (x_flag x = true -> hd false tags = true) /\ (Nat.min 2 (x_s x) <= length (x_cy x))%nat.
Definition x_end (p : xparams) (x : xstate) : Prop := exists tags, length tags = length (x_cy x) /\ xtrace p (ts_s (x_st x)) (combine (x_cy x) tags) /\
  ((xp_ncycles p <= x_s x)%nat -> topr (ts_t (x_st x)) = cp_emax (xp_c p) / cp_erate (xp_c p) + INR (computed (combine (x_cy x) tags)) * period (xp_c p)).
Lemma compute_inv M P p x tags : cycle_ok (xp_c p) -> (x_s x < xp_ncycles p)%nat -> x_inv p x tags ->
  match x_compute M P p x with (x', true) => x_inv p x' (true :: tags) /\ x_s x' = S (x_s x) /\ x_flag x' = true | (x', false) => x_end p x' end.
Proof.
  intros HC Hs (A1 & A2 & A3 & A4 & A5 & A6 & A7). unfold x_compute. assert (EX := cycle_ext M P (xp_c p) (x_st x)). destruct (one_cycle M P (xp_c p) (x_st x)) as [si [st [e|]]] eqn:E; cbn [fst snd] in EX.
  - destruct EX as (l & EX). exists tags. cbn [x_cy x_st x_s]. split; [exact A1|]. split; [rewrite EX; apply xtrace_ext, A2|]. intros Q. lia.
  - destruct (cycle_grown _ _ _ _ _ _ HC E) as (((lg & LG & NG) & GD & GT & _) & W). destruct (W A4) as (ls & s0 & L1 & L2 & L3). rewrite L1, <- L2, since_app.
    split; [|split; reflexivity]. unfold x_inv. cbn [x_cy x_st x_s x_flag Datatypes.length combine last_n xc_n hd computed filter snd]. rewrite A1.
    split; [reflexivity|]. split.
    { constructor; [rewrite LG; apply xtrace_ext, A2|cbn [xc_n]; rewrite A3; reflexivity|cbn [xc_n]; lia|]. exists [], ls, s0. split; [exact L1|]. cbn [xc_max xc_min]. split; [apply pymax_greatest, L3|apply pymin_least, L3]. }
    split; [reflexivity|]. split; [rewrite LG, app_length; lia|]. split; [rewrite GT, A5; unfold computed; set (q := filter _ _); change (Datatypes.length ((_, true) :: q)) with (S (length q)); rewrite S_INR; ring|]. split; [reflexivity|lia].
Qed.
Lemma extrapolate_inv p x tags : (x_s x < xp_ncycles p)%nat -> (xp_min p <= x_s x)%nat -> x_flag x = true -> x_inv p x tags ->
  match x_extrapolate p x with
  | Ret (x', true) => (exists tags', x_inv p x' tags') /\ (x_s x <= x_s x')%nat /\ x_flag x' = false
  | Ret (x', false) => x_end p x'
  | Raise e => e = PyValueError /\ (xp_min p <= 1)%nat
  end.
Proof.
  intros Hs Hm Hf HI. assert (HI' := HI). destruct HI' as (A1 & A2 & A3 & A4 & A5 & A6 & A7). unfold x_extrapolate. destruct (x_cy x) as [|c1 [|c0 cy]] eqn:EC.
  - cbn [Datatypes.length] in A7. split; [reflexivity|lia].
  - cbn [Datatypes.length] in A7. split; [reflexivity|lia].
  - destruct (Rle_dec _ _).
    + set (dN := if Nat.leb (x_s x) (xp_unit p) then 1%nat else xp_jump p). destruct (Nat.ltb_spec (xp_ncycles p) (x_s x + dN)) as [L|L].
      * exists tags. cbn [x_cy x_st x_s]. split; [exact A1|]. split; [exact A2|]. intros _. exact A5.
      * split; [|split; [cbn [x_s]; lia|reflexivity]]. exists (false :: tags). unfold x_inv. cbn [x_cy x_st x_s x_flag].
        destruct tags as [|t1 [|t0 tags]]; [discriminate|discriminate|]. specialize (A6 Hf). cbn [hd] in A6. subst t1. cbn [combine last_n] in *.
        assert (HN : xc_n c1 = S (xc_n c0)). { inversion A2 as [|? ? ? HN _ _|]; subst; exact HN. }
        assert (HK : INR (xc_n c1) - INR (xc_n c0) = 1) by (rewrite HN, S_INR; ring).
        cbn [with_d ts_s ts_d push dv_strain ts_t]. split; [cbn [Datatypes.length] in *; lia|]. split.
        { constructor; cbn [xc_n xc_max xc_min]; [exact A2|lia|lia|rewrite A3; reflexivity| |]; unfold on_line, line; rewrite HK, plus_INR, A3; field. }
        split; [reflexivity|]. split; [exact A4|]. split; [exact A5|]. split; [intros Q; discriminate|cbn [Datatypes.length]; lia].
    + split; [|split; [cbn [x_s]; lia|reflexivity]]. exists tags. unfold x_inv. cbn [x_cy x_st x_s x_flag]. repeat (split; [assumption|]). split; [intros Q; discriminate|exact A7].
Qed.
Definition x_weight (p : xparams) (x : xstate) : nat := (2 * (xp_ncycles p - x_s x) + (if x_flag x then 1 else 0))%nat.
Lemma loop_sound M P p : cycle_ok (xp_c p) -> forall fuel x tags, x_inv p x tags -> (x_weight p x <= fuel)%nat ->
  match x_loop fuel M P p x with Ret x' => x_end p x' | Raise e => e = PyValueError /\ (xp_min p <= 1)%nat end.
Proof.
  intros HC. induction fuel as [|fuel IH]; intros x tags HI Hw; cbn [x_loop]; destruct (Nat.ltb_spec (x_s x) (xp_ncycles p)) as [L|L].
  - unfold x_weight in Hw. lia.
  - destruct HI as (A1 & A2 & _ & _ & A5 & _). exists tags. split; [exact A1|]. split; [exact A2|]. intros _. exact A5.
  - unfold x_pass. destruct (match cp_dmg (xp_c p) with Some _ => _ | None => false end); [destruct HI as (A1 & A2 & _ & _ & A5 & _); exists tags; split; [exact A1|]; split; [exact A2|]; intros _; exact A5|].
    destruct (Nat.leb_spec (xp_min p) (x_s x)) as [Lm|Lm]; [destruct (x_flag x) eqn:EF|]; cbn [andb].
    + assert (Q := extrapolate_inv p x tags L Lm EF HI). destruct (x_extrapolate p x) as [[x' [|]]|e]; [|exact Q|exact Q]. destruct Q as ((tags' & HI') & Q1 & Q2). apply (IH x' tags' HI'). unfold x_weight in *. rewrite EF in Hw. rewrite Q2. lia.
    + assert (Q := compute_inv M P p x tags HC L HI). destruct (x_compute M P p x) as [x' [|]]; [|exact Q]. destruct Q as (HI' & Q1 & Q2). apply (IH x' _ HI'). unfold x_weight in *. rewrite EF in Hw. rewrite Q1, Q2. lia.
    + assert (Q := compute_inv M P p x tags HC L HI). destruct (x_compute M P p x) as [x' [|]]; [|exact Q]. destruct Q as (HI' & Q1 & Q2). apply (IH x' _ HI'). unfold x_weight in *. rewrite Q1, Q2. destruct (x_flag x); lia.
  - destruct HI as (A1 & A2 & _ & _ & A5 & _). exists tags. split; [exact A1|]. split; [exact A2|]. intros _. exact A5.
Qed.
Lemma loop_more M P p : forall fuel x y, x_loop fuel M P p x = Ret y -> forall k, x_loop (k + fuel) M P p x = Ret y.
Proof.
  induction fuel as [|fuel IH]; intros x y H k.
  - cbn [x_loop] in H. destruct (k + 0)%nat; cbn [x_loop]; destruct (Nat.ltb (x_s x) (xp_ncycles p)); try discriminate; exact H.
  - rewrite Nat.add_succ_r. cbn [x_loop] in *. destruct (Nat.ltb (x_s x) (xp_ncycles p)); [|exact H]. destruct (x_pass M P p x) as [[x' [|]]|e]; [apply IH, H|exact H|discriminate].
Qed.
Lemma first_inv M P p st : cycle_ok (xp_c p) -> ramp M P (cp_sdir (xp_c p)) (cp_sdir (xp_c p)) (cp_erate (xp_c p)) (cp_emax (xp_c p) / INR (cp_nsteps (xp_c p))) (cp_T (xp_c p)) (cp_dmg (xp_c p)) (cp_nsteps (xp_c p)) (tst0 M (cp_T (xp_c p))) = (st, None) ->
  x_inv p {| x_st := st; x_s := 0; x_flag := false; x_cy := [] |} [].
Proof.
  intros (Hn & _) H. destruct (ramp_grown _ _ _ _ _ _ _ _ _ _ _ H) as ((ls & L & N) & G2 & G3 & _). unfold x_inv. cbn [x_cy x_st x_s x_flag combine last_n Datatypes.length computed filter INR].
  split; [reflexivity|]. split; [constructor|]. split; [reflexivity|]. split; [rewrite L, app_length, G2; cbn; lia|]. split; [|split; [intros Q; discriminate|cbn; lia]].
  rewrite G3. cbn [tst0 ts_t topr hd]. assert (X : INR (cp_nsteps (xp_c p)) * / INR (cp_nsteps (xp_c p)) = 1) by (apply Rinv_r, not_0_INR; lia).
  rewrite Rmult_0_l, Rplus_0_r, Rplus_0_l. transitivity (INR (cp_nsteps (xp_c p)) * / INR (cp_nsteps (xp_c p)) * (cp_emax (xp_c p) / cp_erate (xp_c p))); [unfold Rdiv; ring|rewrite X; ring].
Qed.
Lemma extrapolated_sound fuel M P p x : cycle_ok (xp_c p) -> extrapolated fuel M P p = Ret x -> exists tags, length tags = length (x_cy x) /\ xtrace p (ts_s (x_st x)) (combine (x_cy x) tags) /\
  ((xp_ncycles p <= x_s x)%nat -> topr (ts_t (x_st x)) = cp_emax (xp_c p) / cp_erate (xp_c p) + INR (computed (combine (x_cy x) tags)) * period (xp_c p)).
Proof.
  intros HC H. unfold extrapolated in H. cbv zeta in H. destruct (ramp _ _ _ _ _ _ _ _ _ _) as [st [[e|]|]] eqn:ER; try discriminate.
  assert (Q := loop_sound M P p HC _ _ _ (first_inv _ _ _ _ HC ER) (Nat.le_add_l (x_weight p {| x_st := st; x_s := 0; x_flag := false; x_cy := [] |}) fuel)).
  rewrite Nat.add_comm in Q. rewrite (loop_more _ _ _ _ _ _ H) in Q. exact Q.
Qed.
(** it ends: two passes per cycle are enough *)
Lemma extrapolated_returns fuel M P p st : cycle_ok (xp_c p) -> (2 <= xp_min p)%nat -> (2 * xp_ncycles p <= fuel)%nat ->
  ramp M P (cp_sdir (xp_c p)) (cp_sdir (xp_c p)) (cp_erate (xp_c p)) (cp_emax (xp_c p) / INR (cp_nsteps (xp_c p))) (cp_T (xp_c p)) (cp_dmg (xp_c p)) (cp_nsteps (xp_c p)) (tst0 M (cp_T (xp_c p))) = (st, None) ->
  exists x, extrapolated fuel M P p = Ret x.
Proof.
  intros HC Hm Hf ER. unfold extrapolated. cbv zeta. rewrite ER. assert (Q := loop_sound M P p HC fuel _ _ (first_inv _ _ _ _ HC ER)). unfold x_weight in Q. cbn [x_s x_flag] in Q. specialize (Q ltac:(lia)).
  destruct (x_loop _ _ _ _ _) as [x|e]; [exists x; reflexivity|destruct Q; lia].
Qed.
(** with a minimum below two the second pass looks for a cycle that is not there *)
Lemma extrapolated_early fuel M P p st si st' : (xp_min p <= 1)%nat -> (2 <= xp_ncycles p)%nat -> (2 <= fuel)%nat -> cp_dmg (xp_c p) = None ->
  ramp M P (cp_sdir (xp_c p)) (cp_sdir (xp_c p)) (cp_erate (xp_c p)) (cp_emax (xp_c p) / INR (cp_nsteps (xp_c p))) (cp_T (xp_c p)) (cp_dmg (xp_c p)) (cp_nsteps (xp_c p)) (tst0 M (cp_T (xp_c p))) = (st, None) ->
  one_cycle M P (xp_c p) st = (si, (st', None)) -> extrapolated fuel M P p = Raise PyValueError.
Proof.
  intros Hm Hn Hf HD ER EC. unfold extrapolated. cbv zeta. rewrite ER. destruct fuel as [|[|fuel]]; try lia. cbn [x_loop x_s]. destruct (Nat.ltb_spec 0 (xp_ncycles p)); [|lia].
  unfold x_pass at 1. rewrite HD. cbn [x_flag]. rewrite andb_false_r. unfold x_compute. cbn [x_st x_s x_cy]. rewrite EC. cbn [x_s]. destruct (Nat.ltb_spec 1 (xp_ncycles p)); [|lia].
  unfold x_pass at 1. rewrite HD. cbn [x_flag x_s]. destruct (Nat.leb_spec (xp_min p) 1); [|lia]. cbn [andb]. reflexivity.
Qed.
(** numbers increase *)
Lemma xtrace_numbers p s l : (1 <= xp_jump p)%nat -> xtrace p s l -> StronglySorted gt (map (fun k => xc_n (fst k)) l) /\ Forall (fun k => (xc_n (fst k) <= xp_ncycles p)%nat) l.
Proof.
  intros Hj H. assert (G : StronglySorted gt (map (fun k => xc_n (fst k)) l) /\ Forall (fun k => (xc_n (fst k) <= xp_ncycles p)%nat) l /\ Forall (fun n => (n <= last_n l)%nat) (map (fun k => xc_n (fst k)) l)).
  { induction H as [|k l H (I1 & I2 & I3) HN HL _|k c1 c0 b l H (I1 & I2 & I3) H1 H2 H3 _ _]; [repeat constructor| |].
    - cbn [map fst last_n]. split; [constructor; [exact I1|eapply Forall_impl; [|exact I3]; cbn; intros; lia]|]. split; [constructor; assumption|constructor; [lia|eapply Forall_impl; [|exact I3]; cbn; intros; lia]].
    - cbn [last_n] in I3. assert (xc_n c1 < xc_n k)%nat by (rewrite H3; destruct (Nat.leb _ _); lia).
      cbn [map fst last_n] in *. split; [constructor; [exact I1|eapply Forall_impl; [|exact I3]; cbn; intros; lia]|]. split; [constructor; assumption|constructor; [lia|eapply Forall_impl; [|exact I3]; cbn; intros; lia]]. }
  split; apply G.
Qed.
(** the history jumps along the change over the last cycle *)
Lemma history_line M P p x x1 x2 : cycle_ok (xp_c p) -> x_compute M P p x = (x1, true) -> x_extrapolate p x1 = Ret (x2, true) -> x_cy x2 <> x_cy x1 ->
  (forall c1 c0 cy, x_cy x1 = c1 :: c0 :: cy -> xc_n c1 = S (xc_n c0)) ->
  forall i, top (dv_stored (ts_d (x_st x2))) i = top (dv_stored (ts_d (x_st x1))) i + INR (x_s x2 - x_s x1) * (top (dv_stored (ts_d (x_st x1))) i - top (dv_stored (ts_d (x_st x))) i).
Proof.
  intros HC HX HE HNE HNum i. unfold x_compute in HX. destruct (one_cycle M P (xp_c p) (x_st x)) as [si [st [e|]]] eqn:EC; [discriminate|]. injection HX as <-.
  destruct (cycle_grown _ _ _ _ _ _ HC EC) as ((_ & _ & _ & (l & L & NL) & _) & _). unfold x_extrapolate in HE. cbn [x_st x_s x_cy x_flag xc_n xc_max xc_min] in *.
  destruct (x_cy x) as [|c0 cy]; [discriminate|]. specialize (HNum _ _ _ eq_refl). cbn [xc_n] in HNum. destruct (Rle_dec _ _).
  - set (dN := if Nat.leb (S (x_s x)) (xp_unit p) then 1%nat else xp_jump p) in *. destruct (Nat.ltb _ _); [discriminate|]. injection HE as <-. cbn [x_st x_s with_d ts_d push dv_stored]. unfold top at 1. cbn [hd].
    unfold line. rewrite L, app_nth2, NL, Nat.sub_diag by lia. replace (nth 0 (dv_stored (ts_d (x_st x))) v0) with (top (dv_stored (ts_d (x_st x)))) by (destruct (dv_stored (ts_d (x_st x))); reflexivity).
    assert (HK : INR (S (x_s x)) - INR (xc_n c0) = 1) by (rewrite HNum, S_INR; ring). change (match x_s x with 0%nat => 1 | S _ => INR (x_s x) + 1 end) with (INR (S (x_s x))). rewrite HK. replace (S (x_s x + dN) - S (x_s x))%nat with dN by lia. field.
  - injection HE as <-. cbn [x_cy] in HNE. congruence.
Qed.

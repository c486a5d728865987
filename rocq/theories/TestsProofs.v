From Verif Require Import Base Diff.
From Verif Require Import SolverModel SubstepModel CreepModel NlModel NlSpec NlProofs UniModel UniSpec UniProofs DrvModel DrvSpec DrvProofs TestsModel TestsSpec.
From Verif Require Import WalkerInv.
From Coq Require Import ZArith String List.
Import ListNotations.

Lemma norm2_tri n a b : norm2 n (fun i => a i + b i) <= norm2 n a + norm2 n b.
Proof.
  assert (P : 0 <= norm2 n a + norm2 n b) by (assert (A := norm2_nonneg n a); assert (B := norm2_nonneg n b); lra).
  rewrite <- (sqrt_Rsqr _ P). unfold norm2 at 1. apply sqrt_le_1_alt. unfold Rsqr.
  assert (E : dot n (fun i => a i + b i) (fun i => a i + b i) = dot n a a + 2 * dot n a b + dot n b b).
  { unfold dot. rewrite <- rsum_scal, <- !rsum_plus. apply rsum_ext. intros. ring. }
  rewrite E, <- !norm2_sqr. assert (C := cauchy n a b). nra.
Qed.
Lemma errors_nonneg P n e : errors P n e -> 0 <= e.
Proof. induction 1 as [|n e r r0 _ IH [H _]]; lra. Qed.
Lemma errors_add P n m a b : errors P n a -> errors P m b -> errors P (n + m) (a + b).
Proof.
  intros HA HB. induction HB as [|m b r r0 HB IH W]; [rewrite Nat.add_0_r, Rplus_0_r; exact HA|].
  rewrite Nat.add_succ_r. replace (a + (b + r)) with (a + b + r) by ring. econstructor; eassumption.
Qed.

(** ** what a number of steps does to the driver *)
Lemma moved_refl u d : moved u 0 0 0 0 d d.
Proof.
  split; [ring|]. split.
  - replace (dot 6 (fun i => top (dv_strain d) i - top (dv_strain d) i) u) with 0; [rewrite Rminus_0_r, Rabs_R0; lra|]. symmetry. unfold dot. rewrite (rsum_ext 6 _ (fun _ => 0)) by (intros; ring). apply rsum_0.
  - exists 0. unfold norm2, dot. rewrite (rsum_ext 6 _ (fun _ => 0)) by (intros; ring). rewrite rsum_0, sqrt_0. lra.
Qed.
Lemma moved_trans u i1 t1 e1 f1 i2 t2 e2 f2 d d1 d2 : moved u i1 t1 e1 f1 d d1 -> moved u i2 t2 e2 f2 d1 d2 -> moved u (i1 + i2) (t1 + t2) (e1 + e2) (f1 + f2) d d2.
Proof.
  intros (A1 & A2 & a & A3) (B1 & B2 & b & B3). split; [lra|]. split.
  - replace (dot 6 (fun i => top (dv_strain d2) i - top (dv_strain d) i) u) with (dot 6 (fun i => top (dv_strain d2) i - top (dv_strain d1) i) u + dot 6 (fun i => top (dv_strain d1) i - top (dv_strain d) i) u).
    + set (X := dot 6 (fun i => top (dv_strain d2) i - top (dv_strain d1) i) u) in *. set (Y := dot 6 (fun i => top (dv_strain d1) i - top (dv_strain d) i) u) in *.
      replace (X + Y - (i1 + i2)) with ((Y - i1) + (X - i2)) by ring. eapply Rle_trans; [apply Rabs_triang|]. lra.
    + unfold dot. rewrite <- rsum_plus. apply rsum_ext. intros. ring.
  - exists (a + b). eapply Rle_trans; [|apply Rplus_le_compat; [exact A3|exact B3]]. eapply Rle_trans; [|apply norm2_tri]. apply Req_le. unfold norm2, dot. f_equal. apply rsum_ext. intros. ring.
Qed.
Lemma dot_opp n a u : dot n a (fun i => - u i) = - dot n a u.
Proof. unfold dot. rewrite <- rsum_opp. apply rsum_ext. intros. ring. Qed.
Lemma moved_opp u inc t e f d d' : moved (fun i => - u i) inc t e f d d' -> moved u (- inc) t e f d d'.
Proof.
  intros (A & B & a & C). split; [exact A|]. split.
  - rewrite dot_opp in B. rewrite <- Rabs_Ropp. eapply Rle_trans; [|exact B]. apply Req_le. f_equal. ring.
  - exists (- a). eapply Rle_trans; [|exact C]. apply Req_le. unfold norm2, dot. f_equal. apply rsum_ext. intros. ring.
Qed.
Lemma einc_moves M P d sdir erate einc T ge ga d' ei a : einc <> 0 -> erate_einc_step M P d sdir erate einc T ge ga = Ret (d', ei, a) ->
  exists e r0, within P e r0 /\ moved (unitv sdir) einc (einc / erate) e (e * Rabs (einc / erate)) d d'.
Proof.
  intros HE H. destruct (erate_einc_sound _ _ _ _ _ _ _ _ _ _ _ _ HE H) as (e & r0 & W & A & B). destruct (erate_einc_time _ _ _ _ _ _ _ _ _ _ _ _ H) as [_ C].
  exists e, r0. split; [exact W|]. split; [exact C|]. split; [exact B|]. exists a. exact A.
Qed.
Lemma hold_moves M P d sdir t1 T ge ga d' ei a : t1 <> topr (dv_t d) -> erate_step M P d sdir 0 t1 T ge ga = Ret (d', ei, a) ->
  exists e r0, within P e r0 /\ moved (unitv sdir) 0 (t1 - topr (dv_t d)) e (e * Rabs (t1 - topr (dv_t d))) d d'.
Proof.
  intros HT H. destruct (erate_step_sound _ _ _ _ _ _ _ _ _ _ _ _ HT H) as (_ & S2 & _ & e & r0 & W & A & B). exists e, r0. split; [exact W|]. split; [lra|]. split; [|exists a; exact A].
  rewrite Rminus_0_r in *. set (X := dot 6 _ _) in *. set (dt := t1 - topr (dv_t d)) in *. assert (dt <> 0) by (unfold dt; lra).
  replace X with (X / dt * dt) by (field; assumption). rewrite Rabs_mult. apply Rmult_le_compat_r; [apply Rabs_pos|exact B].
Qed.

(** ** loops of passes *)
Lemma synced_start sdir M T : synced sdir (tst0 M T).
Proof.
  unfold synced, tst0, along, top, topr. cbn [ts_e ts_s ts_t ts_d drv_init dv_strain dv_stress dv_t hd Datatypes.length].
  assert (D : dot 6 v0 sdir = 0) by (unfold dot, v0; rewrite (rsum_ext 6 _ (fun _ => 0)) by (intros; ring); apply rsum_0). rewrite D. repeat split.
Qed.
Lemma step_len M P d sdir erate t1 T1 ge ga d' ei a : erate_step M P d sdir erate t1 T1 ge ga = Ret (d', ei, a) -> length (dv_strain d') = S (length (dv_strain d)) /\ topr (dv_t d') = t1.
Proof.
  unfold erate_step. destruct (solve_try _ _ _ _) as [x|]; [|discriminate]. destruct (strain_step _ _ _ _ _ _) as [d1|] eqn:E; [|discriminate]. intros H. injection H as <- <- <-.
  destruct (strain_step_parts _ _ _ _ _ _ _ E) as (r & _ & ->). split; reflexivity.
Qed.
Lemma pass_ok sdir dt dmg r st st' : pass sdir dt dmg r st = (st', None) -> exists d ei a, r = Ret (d, ei, a) /\ ts_d st' = d /\
  ts_e st' = along (dv_strain d) sdir :: ts_e st /\ ts_s st' = along (dv_stress d) sdir :: ts_s st /\ ts_t st' = topr (ts_t st) + dt :: ts_t st.
Proof.
  unfold pass. destruct r as [[[d ei] a]|e]; [|discriminate]. destruct (match dmg with Some _ => _ | None => false end); [discriminate|]. intros H. injection H as <-.
  exists d, ei, a. repeat split.
Qed.
Lemma passes_induct (Q : nat -> tst -> tst -> Prop) f : (forall st, Q 0%nat st st) ->
  (forall n st st1 st2, f st = (st1, None) -> Q n st1 st2 -> Q (S n) st st2) -> forall n st st', passes n f st = (st', None) -> Q n st st'.
Proof.
  intros H0 HS. induction n as [|n IH]; intros st st' H; cbn [passes] in H; [injection H as <-; apply H0|].
  destruct (f st) as [st1 [x|]] eqn:E; [discriminate|]. eapply HS; [exact E|]. apply IH, H.
Qed.
Lemma ramp_moves M P sdir pull erate einc T dmg n st st' : einc <> 0 -> synced sdir st -> ramp M P sdir pull erate einc T dmg n st = (st', None) ->
  synced sdir st' /\ length (ts_e st') = (n + length (ts_e st))%nat /\
  exists e, errors P n e /\ moved (unitv pull) (INR n * einc) (INR n * (einc / erate)) e (e * Rabs (einc / erate)) (ts_d st) (ts_d st').
Proof.
  intros HE HS H. unfold ramp in H.
  refine (passes_induct (fun n st st' => synced sdir st -> synced sdir st' /\ length (ts_e st') = (n + length (ts_e st))%nat /\
    exists e, errors P n e /\ moved (unitv pull) (INR n * einc) (INR n * (einc / erate)) e (e * Rabs (einc / erate)) (ts_d st) (ts_d st')) _ _ _ n st st' H HS).
  - intros s Hs. split; [exact Hs|]. split; [reflexivity|]. exists 0. split; [constructor|]. cbn [INR]. rewrite !Rmult_0_l. apply moved_refl.
  - intros k s s1 s2 Hp IH Hs. destruct (pass_ok _ _ _ _ _ _ Hp) as (d & ei & a & Er & Ed & E1 & E2 & E3).
    destruct (einc_moves _ _ _ _ _ _ _ _ _ _ _ _ HE Er) as (e1 & r0 & W1 & M1).
    assert (Hs1 : synced sdir s1).
    { destruct Hs as (A1 & A2 & A3 & A4 & A5 & A6). unfold erate_einc_step in Er. destruct (Req_EM_T erate 0); [discriminate|]. destruct (step_len _ _ _ _ _ _ _ _ _ _ _ _ Er) as [L T0].
      unfold synced. rewrite Ed, E1, E2, E3. cbn [Datatypes.length topr hd]. rewrite L, T0, A1, A2, A3, A4. repeat split. }
    destruct (IH Hs1) as (S2 & L2 & e2 & W2 & M2). split; [exact S2|]. split; [rewrite L2, E1; cbn [Datatypes.length]; lia|].
    exists (e2 + e1). split; [econstructor; eassumption|]. rewrite <- Ed in M1.
    assert (Q := moved_trans _ _ _ _ _ _ _ _ _ _ _ _ M1 M2). rewrite S_INR.
    replace ((INR k + 1) * einc) with (einc + INR k * einc) by ring. replace ((INR k + 1) * (einc / erate)) with (einc / erate + INR k * (einc / erate)) by ring.
    replace (e2 + e1) with (e1 + e2) by ring. rewrite Rmult_plus_distr_r. exact Q.
Qed.
Lemma holds_moves M P sdir dt T dmg n st st' : dt <> 0 -> synced sdir st -> hold M P sdir dt T dmg n st = (st', None) ->
  synced sdir st' /\ length (ts_e st') = (n + length (ts_e st))%nat /\
  exists e, errors P n e /\ moved (unitv sdir) 0 (INR n * dt) e (e * Rabs dt) (ts_d st) (ts_d st').
Proof.
  intros HE HS H. unfold hold in H.
  refine (passes_induct (fun n st st' => synced sdir st -> synced sdir st' /\ length (ts_e st') = (n + length (ts_e st))%nat /\
    exists e, errors P n e /\ moved (unitv sdir) 0 (INR n * dt) e (e * Rabs dt) (ts_d st) (ts_d st')) _ _ _ n st st' H HS).
  - intros s Hs. split; [exact Hs|]. split; [reflexivity|]. exists 0. split; [constructor|]. cbn [INR]. rewrite !Rmult_0_l. apply moved_refl.
  - intros k s s1 s2 Hp IH Hs. destruct (pass_ok _ _ _ _ _ _ Hp) as (d & ei & a & Er & Ed & E1 & E2 & E3).
    destruct Hs as (A1 & A2 & A3 & A4 & A5 & A6). assert (HT : topr (ts_t s) + dt <> topr (dv_t (ts_d s))) by (rewrite A4; lra).
    destruct (hold_moves _ _ _ _ _ _ _ _ _ _ _ HT Er) as (e1 & r0 & W1 & M1). replace (topr (ts_t s) + dt - topr (dv_t (ts_d s))) with dt in M1 by lra.
    assert (Hs1 : synced sdir s1).
    { destruct (step_len _ _ _ _ _ _ _ _ _ _ _ _ Er) as [L T0].
      unfold synced. rewrite Ed, E1, E2, E3. cbn [Datatypes.length topr hd]. fold (topr (dv_t d)). rewrite L, T0, A1, A2, A3. repeat split. }
    destruct (IH Hs1) as (S2 & L2 & e2 & W2 & M2). split; [exact S2|]. split; [rewrite L2, E1; cbn [Datatypes.length]; lia|].
    exists (e2 + e1). split; [econstructor; eassumption|]. rewrite <- Ed in M1.
    assert (Q := moved_trans _ _ _ _ _ _ _ _ _ _ _ _ M1 M2). rewrite S_INR. rewrite Rplus_0_l in Q.
    replace ((INR k + 1) * dt) with (dt + INR k * dt) by ring. replace (e2 + e1) with (e1 + e2) by ring. rewrite Rmult_plus_distr_r. exact Q.
Qed.

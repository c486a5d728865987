From Verif Require Import Base Diff.
From Verif Require Import SolverModel SubstepModel CreepModel NlModel NlSpec NlProofs UniModel UniSpec UniProofs DrvModel DrvSpec DrvProofs TestsModel TestsSpec TestsProofs TestsMore.
From Coq Require Import ZArith String List FunctionalExtensionality.
Import ListNotations.

(** ** creep *)
Lemma stress_len M P d s t T d' : stress_step M P d s t T = Ret d' -> length (dv_strain d') = S (length (dv_strain d)) /\ topr (dv_t d') = t.
Proof.
  unfold stress_step. destruct (solve_try _ _ _ _) as [x|]; [|discriminate]. intros E. destruct (strain_step_parts _ _ _ _ _ _ _ E) as (r & _ & ->). split; reflexivity.
Qed.
Lemma hold_entries M P sdir T elimit dmg : forall ts st st' f, ts_e st <> [] -> creep_hold M P sdir T elimit dmg ts st = (st', f) ->
  exists le ls, ts_e st' = le ++ ts_e st /\ ts_s st' = ls ++ ts_s st /\ length le = length ls /\ (length le <= length ts)%nat /\ ts_t st' = rev (firstn (length le) ts) ++ ts_t st /\
    nondecreasing (le ++ [topr (ts_e st)]) /\ (f = false <-> length le = length ts) /\
    (f = false -> exists e, errors P (length ts) e /\ norm2 6 (fun i => top (dv_stress (ts_d st')) i - top (dv_stress (ts_d st)) i) <= e).
Proof.
  induction ts as [|t ts IH]; intros st st' f HE H; cbn [creep_hold] in H.
  - injection H as <- <-. exists [], []. split; [reflexivity|]. split; [reflexivity|]. split; [reflexivity|]. split; [cbn; lia|]. split; [reflexivity|]. split; [constructor|]. split; [split; reflexivity|].
    intros _. exists 0. split; [constructor|]. unfold norm2, dot. rewrite (rsum_ext 6 _ (fun _ => 0)) by (intros; ring). rewrite rsum_0, sqrt_0. lra.
  - assert (STOP : forall st1, ts_e st1 = ts_e st -> ts_s st1 = ts_s st -> ts_t st1 = ts_t st -> (st1, true) = (st', f) ->
      exists le ls, ts_e st' = le ++ ts_e st /\ ts_s st' = ls ++ ts_s st /\ length le = length ls /\ (length le <= length (t :: ts))%nat /\ ts_t st' = rev (firstn (length le) (t :: ts)) ++ ts_t st /\
    nondecreasing (le ++ [topr (ts_e st)]) /\ (f = false <-> length le = length (t :: ts)) /\
    (f = false -> exists e, errors P (length (t :: ts)) e /\ norm2 6 (fun i => top (dv_stress (ts_d st')) i - top (dv_stress (ts_d st)) i) <= e)).
    { intros st1 Q1 Q2 Q3 Q. injection Q as <- <-. exists [], []. cbn [app Datatypes.length firstn rev]. split; [exact Q1|]. split; [exact Q2|]. split; [reflexivity|]. split; [lia|]. split; [exact Q3|].
      split; [constructor|]. split; [split; [discriminate|lia]|discriminate]. }
    destruct (stress_step M P (ts_d st) (top (dv_stress (ts_d st))) t T) as [d|x] eqn:E; [|eapply STOP; [| | |exact H]; reflexivity].
    destruct (exceeds elimit (top (dv_strain d))); [eapply STOP; [| | |exact H]; reflexivity|].
    destruct (Rlt_dec (along (dv_strain d) sdir) (topr (ts_e st))) as [|L]; [eapply STOP; [| | |exact H]; reflexivity|].
    destruct (match dmg with Some _ => _ | None => false end); [eapply STOP; [| | |exact H]; reflexivity|]. clear STOP.
    apply IH in H; [|discriminate]. destruct H as (le & ls & A & B & C & D & F & G & I & J). cbn [ts_e ts_s ts_t ts_d topr hd] in *. exists (le ++ [along (dv_strain d) sdir]), (ls ++ [along (dv_stress d) sdir]).
    rewrite <- !app_assoc. cbn [app]. rewrite !app_length. cbn [Datatypes.length]. rewrite Nat.add_1_r. cbn [firstn rev]. rewrite <- app_assoc. cbn [app].
    split; [exact A|]. split; [exact B|]. split; [lia|]. split; [lia|]. split; [exact F|]. split.
    + clear - G L. assert (Q : forall l, nondecreasing (l ++ [along (dv_strain d) sdir]) -> nondecreasing (l ++ [along (dv_strain d) sdir; topr (ts_e st)])).
      { induction l as [|a [|b l] IH]; cbn [app].
        - intros _. constructor; [lra|constructor].
        - intros K. inversion K; subst. constructor; [assumption|]. constructor; [lra|constructor].
        - intros K. inversion K; subst. constructor; [assumption|]. apply IH. assumption. }
      apply Q, G.
    + split; [rewrite I; split; lia|]. intros Q. destruct (J Q) as (e & We & Be). destruct (stress_step_sound _ _ _ _ _ _ _ E) as (_ & _ & g & rg & _ & _ & W).
      eexists. split; [econstructor; [exact We|exact W]|]. eapply Rle_trans; [|apply Rplus_le_compat; [exact Be|apply Rle_refl]]. eapply Rle_trans; [|apply norm2_tri]. apply Req_le. unfold norm2, dot. f_equal. apply rsum_ext. intros. ring.
Qed.
Definition csync (st : tst) : Prop := ts_e st <> [] /\ length (ts_e st) = length (dv_strain (ts_d st)) /\ length (ts_s st) = length (dv_strain (ts_d st)) /\ length (ts_t st) = length (dv_strain (ts_d st)).
Lemma up_sync M P sdir srate sinc T : forall n st, Nat.iter n (creep_up M P sdir srate sinc T) (Ret (tst0 M T)) = Ret st -> csync st /\ length (ts_e st) = S n.
Proof.
  induction n as [|n IH]; intros st H; cbn [Nat.iter nat_rect] in H.
  - injection H as <-. split; [|reflexivity]. split; [discriminate|]. repeat split.
  - unfold Nat.iter in IH. destruct (nat_rect _ _ _ n) as [s|]; [|discriminate]. cbn [creep_up] in H. destruct (srate_sinc_step M P (ts_d s) sdir srate sinc T) as [d|] eqn:E; [|discriminate]. injection H as <-.
    destruct (IH s eq_refl) as ((A & B & C & D) & L). destruct (stress_len _ _ _ _ _ _ _ E) as [SL _]. unfold csync. cbn [ts_e ts_s ts_t ts_d Datatypes.length]. rewrite SL. split; [|lia]. split; [discriminate|]. repeat split; lia.
Qed.
(** the load: up to nup stress steps *)
Lemma up_stress M P sdir srate sinc T : allzero sdir = false -> forall n st, Nat.iter n (creep_up M P sdir srate sinc T) (Ret (tst0 M T)) = Ret st ->
  exists e, errors P n e /\ norm2 6 (fun i => top (dv_stress (ts_d st)) i - INR n * sinc * unitv sdir i) <= e.
Proof.
  intros HZ. induction n as [|n IH]; intros st H; cbn [Nat.iter nat_rect] in H.
  - injection H as <-. exists 0. split; [constructor|]. cbn [tst0 ts_d drv_init dv_stress top hd INR]. unfold norm2, dot, v0. rewrite (rsum_ext 6 _ (fun _ => 0)) by (intros; ring). rewrite rsum_0, sqrt_0. lra.
  - unfold Nat.iter in IH. destruct (nat_rect _ _ _ n) as [s|]; [|discriminate]. cbn [creep_up] in H. destruct (srate_sinc_step M P (ts_d s) sdir srate sinc T) as [d|] eqn:E; [|discriminate]. injection H as <-.
    destruct (IH s eq_refl) as (e & We & Be). destruct (srate_sound _ _ _ _ _ _ _ _ HZ E) as (_ & e1 & r0 & W1 & B1). exists (e + e1). split; [econstructor; eassumption|]. cbn [ts_d].
    eapply Rle_trans; [|apply Rplus_le_compat; [exact Be|exact B1]]. eapply Rle_trans; [|apply norm2_tri]. apply Req_le. unfold norm2, dot. f_equal. apply rsum_ext. intros. rewrite S_INR. ring.
Qed.
Definition creep_times (logs : bool) (t0 h : R) (n : nat) : list R := if logs then log_times t0 h n else lin_times t0 h n.
Lemma times_len logs t0 h n : length (creep_times logs t0 h n) = n.
Proof. unfold creep_times, log_times, lin_times. destruct logs; rewrite map_length, seq_length; reflexivity. Qed.
Lemma creep_sound M P sdir smax srate h T elimit dmg nsteps nup logs r : allzero sdir = false -> (0 < nup)%nat ->
  creep M P sdir smax srate h T elimit dmg nsteps nup logs = Ret r ->
  exists le t0 (st0 : tst), ts_e (cr_st r) = le ++ ts_e st0 /\ length (ts_e st0) = S nup /\ cr_ri r = S nup /\ topr (ts_t st0) = t0 /\ (length le <= nsteps)%nat /\
    ts_t (cr_st r) = rev (firstn (length le) (creep_times logs t0 h nsteps)) ++ ts_t st0 /\ nondecreasing (le ++ [topr (ts_e st0)]) /\
    (cr_failed r = false <-> length le = nsteps) /\
    (exists e, errors P nup e /\ norm2 6 (fun i => top (dv_stress (ts_d st0)) i - smax * unitv sdir i) <= e) /\
    (cr_failed r = false -> exists e, errors P (nup + nsteps) e /\ norm2 6 (fun i => top (dv_stress (ts_d (cr_st r))) i - smax * unitv sdir i) <= e).
Proof.
  intros HZ Hn H. unfold creep in H. destruct (Nat.iter _ _ _) as [st|] eqn:E; [|discriminate]. fold (creep_times logs (topr (ts_t st)) h nsteps) in H.
  destruct (creep_hold _ _ _ _ _ _ _ _) as [st' f] eqn:F. injection H as <-. cbn [cr_st cr_ri cr_failed].
  destruct (up_sync _ _ _ _ _ _ _ _ E) as ((A & B & _) & L). destruct (up_stress _ _ _ _ _ _ HZ _ _ E) as (e & We & Be).
  assert (Q : INR nup * (smax / INR nup) = smax) by (field; apply not_0_INR; lia). rewrite Q in Be.
  destruct (hold_entries _ _ _ _ _ _ _ _ _ _ A F) as (le & ls & H1 & H2 & H3 & H4 & H5 & H6 & H7 & H8). rewrite times_len in *.
  exists le, (topr (ts_t st)), st. split; [exact H1|]. split; [exact L|]. split; [lia|]. split; [reflexivity|]. split; [exact H4|]. split; [exact H5|]. split; [exact H6|]. split; [exact H7|]. split; [exists e; split; assumption|].
  intros K. destruct (H8 K) as (e2 & W2 & B2). exists (e + e2). split; [apply errors_add; assumption|]. eapply Rle_trans; [|apply Rplus_le_compat; [exact Be|exact B2]]. eapply Rle_trans; [|apply norm2_tri]. apply Req_le. unfold norm2, dot. f_equal. apply rsum_ext. intros. ring.
Qed.
Lemma lin_kth t0 h n k : (k < n)%nat -> nth k (lin_times t0 h n) 0 = t0 + INR (S k) * (h / INR n).
Proof.
  intros H. unfold lin_times. rewrite (nth_indep _ 0 ((fun k => t0 + INR (S k) * (h / INR n)) 0%nat)) by (rewrite map_length, seq_length; exact H).
  rewrite (map_nth (fun k => t0 + INR (S k) * (h / INR n))). rewrite seq_nth by exact H. reflexivity.
Qed.
Lemma lin_last t0 h n : (0 < n)%nat -> nth (n - 1) (lin_times t0 h n) 0 = t0 + h.
Proof. intros H. rewrite lin_kth by lia. replace (S (n - 1)) with n by lia. f_equal. field. apply not_0_INR. lia. Qed.
(** logarithmic times end at the hold time but start one unit of time after the load, even if the
    whole hold is shorter *)
Lemma log_ends t0 h n : 0 < h -> (2 <= n)%nat -> nth 0 (log_times t0 h n) 0 = 1 + t0 /\ nth (n - 1) (log_times t0 h n) 0 = h + t0.
Proof.
  intros Hh H. assert (K : forall k, (k < n)%nat -> nth k (log_times t0 h n) 0 = Rpower h (INR k / INR (n - 1)) + t0).
  { intros k Hk. unfold log_times. rewrite (nth_indep _ 0 ((fun k => Rpower h (INR k / INR (n - 1)) + t0) 0%nat)) by (rewrite map_length, seq_length; exact Hk).
    rewrite (map_nth (fun k => Rpower h (INR k / INR (n - 1)) + t0)). rewrite seq_nth by exact Hk. reflexivity. }
  rewrite !K by lia. split.
  - f_equal. cbn [INR]. unfold Rdiv. rewrite Rmult_0_l. apply Rpower_O, Hh.
  - f_equal. replace (INR (n - 1) / INR (n - 1)) with 1 by (field; apply not_0_INR; lia). apply Rpower_1, Hh.
Qed.
Lemma log_backwards t0 h n : 0 < h < 1 -> (2 <= n)%nat -> nth (n - 1) (log_times t0 h n) 0 < nth 0 (log_times t0 h n) 0.
Proof. intros Hh H. destruct (log_ends t0 h n ltac:(lra) H) as [-> ->]. lra. Qed.
(** what isochronous_curve takes for the strain at the end is the strain one step earlier *)
Lemma tstrain_early M P sdir smax srate h T elimit dmg nsteps nup r : allzero sdir = false -> (0 < nup)%nat -> (2 <= nsteps)%nat ->
  creep M P sdir smax srate h T elimit dmg nsteps nup false = Ret r -> cr_failed r = false ->
  exists t0, topr (tstrain r) = nth 1 (ts_e (cr_st r)) 0 /\ length (tstrain r) = (nsteps - 1)%nat /\ topr (ts_t (cr_st r)) = t0 + h /\ nth 1 (ts_t (cr_st r)) 0 = t0 + INR (nsteps - 1) * (h / INR nsteps).
Proof.
  intros HZ Hn H2 H HF. destruct (creep_sound _ _ _ _ _ _ _ _ _ _ _ _ _ HZ Hn H) as (le & t0 & st0 & A & B & C & D & E & F & G & I & _). apply I in HF. exists t0.
  unfold tstrain. rewrite C, A, <- B, since_app. destruct le as [|a [|b le]]; [cbn in HF; lia|cbn in HF; lia|]. cbn [topr hd app nth Datatypes.length] in *. split; [reflexivity|]. split; [lia|].
  rewrite F, HF. unfold creep_times. assert (LL : length (lin_times t0 h nsteps) = nsteps) by (unfold lin_times; rewrite map_length, seq_length; reflexivity).
  rewrite <- LL at 1 3. rewrite firstn_all. 
  assert (N0 : forall k d, (k < nsteps)%nat -> nth k (rev (lin_times t0 h nsteps) ++ ts_t st0) d = nth (nsteps - S k) (lin_times t0 h nsteps) d).
  { intros k d Hk. rewrite app_nth1 by (rewrite rev_length; lia). rewrite rev_nth by lia. rewrite LL. reflexivity. }
  split.
  - unfold topr. transitivity (nth 0 (rev (lin_times t0 h nsteps) ++ ts_t st0) 0); [destruct (rev (lin_times t0 h nsteps) ++ ts_t st0); reflexivity|]. rewrite N0 by lia. apply lin_last. lia.
  - rewrite N0 by lia. rewrite lin_kth by lia. replace (S (nsteps - 2)) with (nsteps - 1)%nat by lia. reflexivity.
Qed.

(** ** isochronous curves *)
Definition iso_point (f : R -> py (R * bool)) (p : R * R) : Prop := p = (0, 0) \/ f (snd p) = Ret (fst p, false).
Lemma iso_loop_sound f emax mc : forall fuel ds nc l r, Forall (iso_point f) l -> l <> [] -> 
  (forall p q l', l = p :: q :: l' -> fst q < emax) -> iso_loop fuel f emax ds nc mc l = Ret r ->
  (exists p q l', r = p :: q :: l' /\ Forall (iso_point f) (q :: l') /\ fst q < emax /\
    ((p = (emax, snd q) /\ exists s, forall e, f s <> Ret (e, false)) \/ (iso_point f p /\ emax <= fst p))) \/ r = l /\ emax <= fst (hd (0, 0) l).
Proof.
  induction fuel as [|fuel IH]; intros ds nc l r HF HL HP H.
  - cbn [iso_loop] in H. destruct l as [|[e s] l]; [congruence|]. destruct (Rlt_dec e emax); [discriminate|]. injection H as <-. right. split; [reflexivity|]. cbn. lra.
  - cbn [iso_loop] in H. destruct l as [|[e s] l]; [congruence|]. destruct (Rlt_dec e emax) as [L|L]; [|injection H as <-; right; split; [reflexivity|cbn; lra]].
    destruct (f (s + ds)) as [[e1 [|]]|x] eqn:EF.
    + injection H as <-. left. exists (emax, s), (e, s), l. split; [reflexivity|]. split; [exact HF|]. split; [exact L|]. left. split; [reflexivity|]. exists (s + ds). intros e0. rewrite EF. discriminate.
    + assert (HF' : Forall (iso_point f) ((e1, s + ds) :: (e, s) :: l)) by (constructor; [right; exact EF|exact HF]).
      destruct (IH ds nc _ r HF' ltac:(discriminate) ltac:(intros p q l' Q; injection Q as <- <- <-; exact L) H) as [Q|[-> Q]]; [left; exact Q|].
      left. exists (e1, s + ds), (e, s), l. split; [reflexivity|]. split; [exact HF|]. split; [exact L|]. right. split; [right; exact EF|exact Q].
    + assert (LAST : Ret ((emax, s) :: (e, s) :: l) = Ret r -> (exists p q l', r = p :: q :: l' /\ Forall (iso_point f) (q :: l') /\ fst q < emax /\
    ((p = (emax, snd q) /\ exists s, forall e, f s <> Ret (e, false)) \/ (iso_point f p /\ emax <= fst p))) \/ r = (e, s) :: l /\ emax <= fst (hd (0, 0) ((e, s) :: l))).
      { intros Q. injection Q as <-. left. exists (emax, s), (e, s), l. split; [reflexivity|]. split; [exact HF|]. split; [exact L|]. left. split; [reflexivity|]. exists (s + ds). intros e0. rewrite EF. discriminate. }
      destruct x; try discriminate; (destruct (Nat.ltb mc (S nc)); [apply LAST, H|apply (IH (ds / 2) (S nc)); assumption]).
Qed.
Lemma iso_sound fuel f emax ds mc r : 0 < emax -> isochronous fuel f emax ds mc = Ret r ->
  exists s e0 s0 l, r = (emax, s) :: (e0, s0) :: l /\ Forall (iso_point f) ((e0, s0) :: l) /\ e0 < emax /\
    ((s = s0 /\ exists s', forall e, f s' <> Ret (e, false)) \/ (exists e1 s1, f s1 = Ret (e1, false) /\ emax <= e1 /\ s = s0 + (s1 - s0) * ((emax - e0) / (e1 - e0)) /\ Rmin s0 s1 <= s <= Rmax s0 s1)).
Proof.
  intros HE H. unfold isochronous in H. destruct (iso_loop _ _ _ _ _ _ _) as [l|] eqn:E; [|discriminate]. injection H as <-.
  assert (F0 : Forall (iso_point f) [(0, 0)]) by (constructor; [left; reflexivity|constructor]).
  destruct (iso_loop_sound f emax mc _ _ _ _ _ F0 ltac:(discriminate) ltac:(intros p q l' Q; discriminate) E) as [(p & [e0 s0] & l' & -> & A & B & C)|[-> B]]; [|cbn in B; lra].
  cbn [fst snd] in *. destruct p as [e1 s1]. cbn [iso_end]. exists (s0 + (s1 - s0) * ((emax - e0) / (e1 - e0))), e0, s0, l'. split; [reflexivity|]. split; [exact A|]. split; [exact B|].
  destruct C as [[C D]|[C D]].
  - injection C as -> ->. left. split; [ring|exact D].
  - right. cbn [fst snd] in *. destruct C as [C|C]; [injection C as -> ->; lra|]. exists e1, s1. cbn [fst snd] in C. split; [exact C|]. split; [exact D|]. split; [reflexivity|].
    set (w := (emax - e0) / (e1 - e0)). assert (W : 0 <= w <= 1).
    { unfold w. split; [apply Rmult_le_pos; [lra|left; apply Rinv_0_lt_compat; lra]|]. apply (Rmult_le_reg_r (e1 - e0)); [lra|]. unfold Rdiv. rewrite Rmult_assoc, Rinv_l by lra. lra. }
    unfold Rmin, Rmax. destruct (Rle_dec s0 s1); split; nra.
Qed.
(** if the first attempt fails the curve is flat at zero stress *)
Lemma iso_zero fuel f emax ds mc e : 0 < emax -> f ds = Ret (e, true) -> isochronous (S fuel) f emax ds mc = Ret [(emax, 0); (0, 0)].
Proof.
  intros HE H. unfold isochronous. cbn [iso_loop]. destruct (Rlt_dec 0 emax); [|lra]. rewrite Rplus_0_l, H. cbn [iso_end]. do 3 f_equal. ring.
Qed.

(** ** temperature and strain histories *)
Lemma tm_ok M P sdir : forall l q d ge ga acc acc', tm_loop M P sdir q l d ge ga acc = Ret (acc', true) -> length acc' = (length l + length acc)%nat.
Proof.
  induction l as [|[[t T] e] l IH]; intros q d ge ga acc acc' H; cbn [tm_loop] in H; [injection H as <-; reflexivity|].
  destruct q as [[t0 T0] e0]. destruct (erate_step _ _ _ _ _ _ _ _ _) as [[[d' ei] a]|x]; [|destruct x; discriminate]. apply IH in H. rewrite H. cbn [Datatypes.length]. lia.
Qed.

(** ** classification of two bars *)
Lemma rlt_t a b : rlt a b = true <-> a < b.
Proof. unfold rlt. destruct (Rlt_dec a b); split; intros; try reflexivity; try assumption; try discriminate; contradiction. Qed.
Lemma classify_ratchet ua ub pa pb e1a e1b e2a e2b rt at_ : classify ua ub pa pb e1a e1b e2a e2b rt at_ = "ratcheting"%string ->
  at_ <= Rabs pb /\ rt * Rabs ub <= Rabs (ub - ua) /\ (rt * Rabs e1b <= Rabs (e1b - e1a) \/ rt * Rabs e2b <= Rabs (e2b - e2a)).
Proof.
  unfold classify, rlt. destruct (Rlt_dec (Rabs pb) at_); [discriminate|]. destruct (Rlt_dec (Rabs (ub - ua)) _); [discriminate|].
  destruct (Rlt_dec (Rabs (e1b - e1a)) _); destruct (Rlt_dec (Rabs (e2b - e2a)) _); cbn [andb]; try discriminate; intros _; (split; [lra|]; split; [lra|]); [right|left|left]; lra.
Qed.
(** two identical cycles are not ratcheting, if energy or both strains are not zero *)
Lemma classify_steady u p e1 e2 rt at_ : 0 < rt -> u <> 0 \/ (e1 <> 0 /\ e2 <> 0) -> classify u u p p e1 e1 e2 e2 rt at_ <> "ratcheting"%string.
Proof.
  intros Hr H K. apply classify_ratchet in K. destruct K as (_ & A & B). rewrite Rminus_diag_eq, Rabs_R0 in A, B by reflexivity. assert (Z2 : e2 - e2 = 0) by ring. rewrite Z2, Rabs_R0 in B.
  destruct H as [H|[H1 H2]]; [assert (Q := Rabs_pos_lt _ H); nra|]. assert (Q1 := Rabs_pos_lt _ H1). assert (Q2 := Rabs_pos_lt _ H2). destruct B; nra.
Qed.
(** but they are if one strain returns to zero while some work is done without energy stored *)
Lemma classify_zero p e1 rt at_ : 0 < rt -> at_ <= Rabs p -> classify 0 0 p p e1 e1 0 0 rt at_ = "ratcheting"%string.
Proof.
  intros Hr H. unfold classify, rlt. rewrite !Rminus_diag_eq, !Rabs_R0, !Rmult_0_r by reflexivity. destruct (Rlt_dec (Rabs p) at_); [lra|]. destruct (Rlt_dec 0 0) as [K|K]; [lra|]. rewrite andb_false_r. reflexivity.
Qed.

(** ** deformation gradient driver *)
Definition rot3 (c s : R) : mat := fun i j => match i, j with 0%nat, 0%nat => c | 0%nat, 1%nat => - s | 1%nat, 0%nat => s | 1%nat, 1%nat => c | 2%nat, 2%nat => 1 | _, _ => 0 end.
Definition id3 : mat := fun i j => if Nat.eqb i j then 1 else 0.
Lemma dg_consistent F1 F0 F1inv : (forall i j, (i < 3)%nat -> (j < 3)%nat -> mm 3 F1inv F1 i j = id3 i j) -> forall i j, (i < 3)%nat -> (j < 3)%nat -> mm 3 (dg_L F1 F0 F1inv) F1 i j = F1 i j - F0 i j.
Proof.
  intros H i j Hi Hj. unfold dg_L.
  assert (E : mm 3 (mm 3 (fun i j => F1 i j - F0 i j) F1inv) F1 i j = mm 3 (fun i j => F1 i j - F0 i j) (mm 3 F1inv F1) i j) by (unfold mm; cbn [rsum]; ring).
  rewrite E. unfold mm at 1. rewrite (rsum_ext 3 _ (fun k => (F1 i k - F0 i k) * id3 k j)) by (intros k Hk; rewrite (H k j Hk Hj); reflexivity).
  unfold id3. cbn [rsum]. destruct j as [|[|[|j]]]; try lia; cbn [Nat.eqb]; ring.
Qed.
(** the two parts put together again are the increment *)
Lemma dg_parts L : let D := dg_dD L in let W := dg_dW L in
  L 0%nat 0%nat = D 0%nat /\ L 1%nat 1%nat = D 1%nat /\ L 2%nat 2%nat = D 2%nat /\
  L 1%nat 2%nat = D 3%nat / sqrt 2 - W 0%nat /\ L 2%nat 1%nat = D 3%nat / sqrt 2 + W 0%nat /\
  L 0%nat 2%nat = D 4%nat / sqrt 2 + W 1%nat /\ L 2%nat 0%nat = D 4%nat / sqrt 2 - W 1%nat /\
  L 0%nat 1%nat = D 5%nat / sqrt 2 - W 2%nat /\ L 1%nat 0%nat = D 5%nat / sqrt 2 + W 2%nat.
Proof. cbv zeta. unfold dg_dD, dg_dW, dg_sym, dg_skew. assert (S2 : sqrt 2 <> 0) by (apply Rgt_not_eq, sqrt_lt_R0; lra). repeat split; field; exact S2. Qed.
(** a rigid rotation is not seen as one: it adds a stretching of size 1 - cos *)
Lemma dg_rotation c s : c * c + s * s = 1 -> let D := dg_dD (dg_L (rot3 c s) id3 (rot3 c (- s))) in
  (forall i j, (i < 3)%nat -> (j < 3)%nat -> mm 3 (rot3 c (- s)) (rot3 c s) i j = id3 i j) /\ D 0%nat = 1 - c /\ D 1%nat = 1 - c /\ D 2%nat = 0.
Proof.
  intros H. cbv zeta. split.
  - intros i j Hi Hj. unfold mm, rot3, id3. cbn [rsum]. destruct i as [|[|[|i]]]; try lia; destruct j as [|[|[|j]]]; try lia; cbn [Nat.eqb]; try ring; nra.
  - unfold dg_dD, dg_sym, dg_L, mm, rot3, id3. cbn [rsum Nat.eqb]. repeat split; nra.
Qed.

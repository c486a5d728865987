From Verif Require Import Base.
From Verif Require Import Diff.
From Verif Require Import NemlMathModel NemlMathSpec NemlMathProofs SolverModel SolverSpec SolverProofs SubstepModel SurfModel SurfSpec SurfProofs HardProofs RiProofs.
From Verif Require Import PlastModel PlastSpec PlastProofs ViscoProofs YaguchiProofs CreepModel CreepSpec CreepProofs J2CreepProofs DamageModel DamageSpec DamageProofs EffStressProofs.

(** the largest principal stress: the largest normal stress over all planes *)
Lemma eig_expand (w n : vec) : (forall i j, (i < 3)%nat -> (j < 3)%nat -> rsum 3 (fun k => w (3 * k + i)%nat * w (3 * k + j)%nat) = delta i j) ->
  forall j, (j < 3)%nat -> n j = rsum 3 (fun k => rsum 3 (fun i => n i * w (3 * k + i)%nat) * w (3 * k + j)%nat).
Proof.
  intros H j Hj. rewrite (rsum_ext 3 _ (fun k => rsum 3 (fun i => n i * w (3 * k + i)%nat * w (3 * k + j)%nat))) by (intros k Hk; rewrite <- rsum_scal_r; reflexivity).
  rewrite rsum_swap. rewrite (rsum_ext 3 _ (fun i => delta j i * n i)); [symmetry; apply (rsum_delta 3 j n Hj)|].
  intros i Hi. rewrite (rsum_ext 3 _ (fun k => n i * (w (3 * k + i)%nat * w (3 * k + j)%nat))) by (intros; ring). rewrite rsum_scal, (H i j Hi Hj). unfold delta. rewrite (Nat.eqb_sym i j). ring.
Qed.
Lemma eig_quad s (v w n : vec) :
  (forall i j, (i < 3)%nat -> (j < 3)%nat -> rsum 3 (fun k => w (3 * k + i)%nat * w (3 * k + j)%nat) = delta i j) ->
  (forall k i, (k < 3)%nat -> (i < 3)%nat -> rsum 3 (fun j => t2 (usym s) i j * w (3 * k + j)%nat) = v k * w (3 * k + i)%nat) ->
  let c k := rsum 3 (fun i => n i * w (3 * k + i)%nat) in
  normal_stress s n = rsum 3 (fun k => v k * (c k * c k)) /\ rsum 3 (fun i => n i * n i) = rsum 3 (fun k => c k * c k).
Proof.
  intros HO HE c. pose proof (eig_expand w n HO) as X. fold c in X. change (forall j, (j < 3)%nat -> n j = rsum 3 (fun k => c k * w (3 * k + j)%nat)) in X. split.
  - unfold normal_stress.
    rewrite (rsum_ext 3 _ (fun i => rsum 3 (fun k => n i * (c k * (v k * w (3 * k + i)%nat))))).
    + rewrite rsum_swap. apply rsum_ext. intros k Hk. unfold c at 3. rewrite (rsum_ext 3 _ (fun i => v k * c k * (n i * w (3 * k + i)%nat))) by (intros; ring). rewrite rsum_scal. ring.
    + intros i Hi. rewrite (rsum_ext 3 (fun j => n i * t2 (usym s) i j * n j) (fun j => n i * (t2 (usym s) i j * rsum 3 (fun k => c k * w (3 * k + j)%nat)))) by (intros j Hj; rewrite <- (X j Hj); ring).
      rewrite rsum_scal. rewrite (rsum_scal 3 (n i)). f_equal.
      rewrite (rsum_ext 3 _ (fun j => rsum 3 (fun k => c k * (t2 (usym s) i j * w (3 * k + j)%nat)))) by (intros j Hj; rewrite <- rsum_scal; apply rsum_ext; intros; ring).
      rewrite rsum_swap. apply rsum_ext. intros k Hk. rewrite rsum_scal, (HE k i Hk Hi). reflexivity.
  - rewrite (rsum_ext 3 _ (fun i => rsum 3 (fun k => n i * (c k * w (3 * k + i)%nat)))) by (intros i Hi; rewrite rsum_scal, <- (X i Hi); reflexivity).
    rewrite rsum_swap. apply rsum_ext. intros k Hk. rewrite (rsum_ext 3 _ (fun i => c k * (n i * w (3 * k + i)%nat))) by (intros; ring). rewrite rsum_scal. reflexivity.
Qed.
Definition row (w : vec) (k : nat) : vec := fun i => w (3 * k + i)%nat.
(** the top eigenvalue is attained and is an upper bound *)
Definition top (s : vec) (l : R) : Prop := (exists n, unit3 n /\ normal_stress s n = l) /\ forall n, unit3 n -> normal_stress s n <= l.
Lemma top_unique s l l' : top s l -> top s l' -> l = l'.
Proof. intros [(n & Hn & E) B] [(n' & Hn' & E') B']. specialize (B _ Hn'). specialize (B' _ Hn). lra. Qed.
Lemma eig_top eigv eigw s v w : eig_ok eigv eigw -> eigv s = Some v -> eigw s = Some w ->
  unit3 (row w 2) /\ normal_stress s (row w 2) = v 2%nat /\
  (forall n, unit3 n -> let c := rsum 3 (fun i => n i * row w 2 i) in c * c <= 1 /\ normal_stress s n <= v 2%nat - (v 2%nat - v 1%nat) * (1 - c * c)) /\ v 1%nat <= v 2%nat.
Proof.
  intros H Ev Ew. destruct (H s) as (v' & w' & Ev' & Ew' & Hv & HR & HC & HE). rewrite Ev in Ev'. injection Ev' as <-. rewrite Ew in Ew'. injection Ew' as <-.
  split; [|split; [|split; [|lra]]].
  - unfold unit3, row. rewrite (HR 2 2)%nat by lia. reflexivity.
  - destruct (eig_quad s v w (row w 2) HC HE) as [E _]. rewrite E. clear E. unfold row.
    rewrite (rsum_ext 3 _ (fun k => delta 2%nat k * v k)).
    + apply (rsum_delta 3 2 v). lia.
    + intros k Hk. rewrite (HR 2%nat k) by lia. unfold delta. destruct (Nat.eqb 2 k); ring.
  - intros n Hn c. destruct (eig_quad s v w n HC HE) as [E1 E2]. rewrite Hn in E2. rewrite E1. change (rsum 3 (fun i => n i * w (3 * 2 + i)%nat)) with c in *.
    cbn [rsum] in *. change (rsum 3 (fun i => n i * w (3 * 2 + i)%nat)) with c in *.
    set (c0 := 0 + n 0%nat * w (3 * 0 + 0)%nat + n 1%nat * w (3 * 0 + 1)%nat + n 2%nat * w (3 * 0 + 2)%nat) in *.
    set (c1 := 0 + n 0%nat * w (3 * 1 + 0)%nat + n 1%nat * w (3 * 1 + 1)%nat + n 2%nat * w (3 * 1 + 2)%nat) in *.
    assert (Ec : 0 + n 0%nat * w (3 * 2 + 0)%nat + n 1%nat * w (3 * 2 + 1)%nat + n 2%nat * w (3 * 2 + 2)%nat = c) by (unfold c, row; cbn [rsum]; reflexivity).
    rewrite Ec in *. pose proof (Rle_0_sqr c0) as Q0. pose proof (Rle_0_sqr c1) as Q1. unfold Rsqr in Q0, Q1.
    assert (E3 : c0 * c0 + c1 * c1 + c * c = 1) by lra. split; [lra|]. assert (v 0%nat * (c0 * c0) <= v 1%nat * (c0 * c0)) by (apply Rmult_le_compat_r; lra).
    assert (E4 : 1 - c * c = c0 * c0 + c1 * c1) by lra. rewrite E4. replace (c * c) with (1 - (c0 * c0 + c1 * c1)) by lra.
    generalize dependent (c0 * c0). generalize dependent (c1 * c1). intros. nra.
Qed.
Lemma eig_is_top eigv eigw s v : eig_ok eigv eigw -> eigv s = Some v -> top s (v 2%nat).
Proof.
  intros H Ev. destruct (H s) as (_ & w & _ & Ew & _). destruct (eig_top eigv eigw s v w H Ev Ew) as (U & E & B & L). split; [exists (row w 2); auto|].
  intros n Hn. destruct (B n Hn) as [B1 B2]. nra.
Qed.
Lemma normal_scale k s n : normal_stress (fun i => k * s i) n = k * normal_stress s n.
Proof.
  unfold normal_stress. rewrite <- rsum_scal. apply rsum_ext. intros i Hi. rewrite <- rsum_scal. apply rsum_ext. intros j Hj.
  cases3 i Hi; cases3 j Hj; cbv [t2 usym Nat.add Nat.mul]; unfold Rdiv; ring.
Qed.
Lemma principal_hom eigv eigw : eig_ok eigv eigw -> es_homogeneous (MaxPrincipalES eigv eigw).
Proof.
  intros H s k Hk. cbn [es_v MaxPrincipalES]. destruct (H s) as (v & _ & Ev & _). destruct (H (fun i => k * s i)) as (v' & _ & Ev' & _). rewrite Ev, Ev'.
  assert (E : v' 2%nat = k * v 2%nat).
  { apply (top_unique (fun i => k * s i)); [exact (eig_is_top eigv eigw _ _ H Ev')|]. destruct (eig_is_top eigv eigw _ _ H Ev) as [(n & Hn & E) B]. split.
    - exists n. split; [exact Hn|]. rewrite normal_scale, E. reflexivity.
    - intros m Hm. rewrite normal_scale. apply Rmult_le_compat_l; [lra|]. apply B, Hm. }
  rewrite E. destruct (Rlt_dec (v 2%nat) 0) as [L|L]; destruct (Rlt_dec (k * v 2%nat) 0) as [L'|L']; f_equal; nra.
Qed.
Lemma principal_value eigv eigw s v : eig_ok eigv eigw -> es_v (MaxPrincipalES eigv eigw) s = Some v -> exists l, top s l /\ v = Rmax 0 l.
Proof.
  intros H. cbn [es_v MaxPrincipalES]. destruct (eigv s) as [w|] eqn:Ev; [|discriminate]. intros E. injection E as <-. exists (w 2%nat). split; [exact (eig_is_top eigv eigw s w H Ev)|].
  destruct (Rlt_dec (w 2%nat) 0); [rewrite Rmax_left by lra; reflexivity|rewrite Rmax_right by lra; reflexivity].
Qed.

(** *** the gradient *)
Lemma derive_sq (h : R -> R) (u K : R) : h u = 0 -> locally u (fun x => 0 <= h x <= K * ((x - u) * (x - u))) -> is_derive h u 0.
Proof.
  intros H0 HL. apply is_derive_Reals. intros e He. destruct HL as (d & Hd).
  pose (K' := Rmax 1 K). assert (HK : 1 <= K') by apply Rmax_l. assert (HK' : K <= K') by apply Rmax_r.
  assert (Hm : 0 < Rmin d (e / K')). { apply Rmin_pos; [apply (cond_pos d)|apply Rdiv_lt_0_compat; lra]. }
  exists (mkposreal _ Hm). cbn [pos]. intros t Ht Hlt.
  assert (L1 : Rabs t < d) by (eapply Rlt_le_trans; [exact Hlt|apply Rmin_l]). assert (L2 : Rabs t < e / K') by (eapply Rlt_le_trans; [exact Hlt|apply Rmin_r]).
  specialize (Hd (u + t)). assert (B : ball u d (u + t)). { unfold ball; cbn. unfold AbsRing_ball, abs, minus, plus, opp; cbn. replace (u + t + - u) with t by ring. exact L1. }
  specialize (Hd B). replace (u + t - u) with t in Hd by ring. rewrite H0, !Rminus_0_r. unfold Rdiv. rewrite Rabs_mult, Rabs_inv, (Rabs_pos_eq (h (u + t))) by lra.
  assert (P : 0 < Rabs t) by (apply Rabs_pos_lt, Ht). apply (Rmult_lt_reg_r (Rabs t)); [exact P|]. rewrite Rmult_assoc, Rinv_l, Rmult_1_r by lra.
  assert (Q : t * t = Rabs t * Rabs t) by (rewrite <- Rabs_mult; symmetry; apply Rabs_pos_eq; nra).
  apply (Rmult_lt_compat_l K') in L2; [|lra]. replace (K' * (e / K')) with e in L2 by (field; lra).
  apply Rle_lt_trans with (K' * Rabs t * Rabs t); [rewrite Q in Hd; nra|]. apply Rmult_lt_compat_r; assumption.
Qed.
Lemma derive_lip (f : R -> R) (u l : R) : is_derive f u l -> locally u (fun x => Rabs (f x - f u) <= (Rabs l + 1) * Rabs (x - u)).
Proof.
  intros D. apply is_derive_Reals in D. destruct (D 1 Rlt_0_1) as (d & Hd). exists d. intros x Hx.
  unfold ball in Hx; cbn in Hx. unfold AbsRing_ball, abs, minus, plus, opp in Hx; cbn in Hx. change (Rabs (x - u) < d) in Hx.
  destruct (Req_dec x u) as [->|N]; [rewrite !Rminus_eq_0, Rabs_R0; lra|].
  specialize (Hd (x - u) ltac:(lra) Hx). replace (u + (x - u)) with x in Hd by lra.
  assert (P : 0 < Rabs (x - u)) by (apply Rabs_pos_lt; lra).
  assert (E : f x - f u = (f x - f u) / (x - u) * (x - u)) by (field; lra). rewrite E, Rabs_mult. apply Rmult_le_compat_r; [lra|].
  apply Rle_trans with (Rabs ((f x - f u) / (x - u) - l) + Rabs l); [|lra].
  replace ((f x - f u) / (x - u)) with (((f x - f u) / (x - u) - l) + l) at 1 by ring. apply Rabs_triang.
Qed.
(** bilinear form of a difference of stresses *)
Definition bil (s p q : vec) : R := rsum 3 (fun i => rsum 3 (fun j => p i * t2 (usym s) i j * q j)).
Lemma bil_diag s n : normal_stress s n = bil s n n. Proof. reflexivity. Qed.
Lemma t2_sub a b i j : (i < 3)%nat -> (j < 3)%nat -> t2 (usym (vsub a b)) i j = t2 (usym a) i j - t2 (usym b) i j.
Proof. intros Hi Hj. unfold vsub. cases3 i Hi; cases3 j Hj; cbv [t2 usym Nat.add Nat.mul]; unfold Rdiv; ring. Qed.
Lemma bil_sub a b p q : bil (vsub a b) p q = bil a p q - bil b p q.
Proof.
  unfold bil. rewrite <- rsum_minus. apply rsum_ext. intros i Hi. rewrite <- rsum_minus. apply rsum_ext. intros j Hj. rewrite t2_sub by assumption. ring.
Qed.
Lemma t2_small s m : (forall i, (i < 6)%nat -> Rabs (s i) <= m) -> forall i j, (i < 3)%nat -> (j < 3)%nat -> Rabs (t2 (usym s) i j) <= m.
Proof.
  intros H. assert (G : forall k, (k < 6)%nat -> Rabs (s k / r2) <= m).
  { intros k Hk. unfold Rdiv. rewrite Rabs_mult. pose proof (H k Hk) as B. pose proof (Rabs_pos (s k)).
    assert (R1' : 1 <= r2). { unfold r2. rewrite <- sqrt_1. apply sqrt_le_1_alt. lra. }
    assert (/ r2 <= 1) by (rewrite <- Rinv_1; apply Rinv_le_contravar; lra). assert (0 < / r2) by (apply Rinv_0_lt_compat; lra).
    rewrite (Rabs_pos_eq (/ r2)) by lra. nra. }
  intros i j Hi Hj. cases3 i Hi; cases3 j Hj; cbv [t2 usym Nat.add Nat.mul]; first [apply H; lia|apply G; lia].
Qed.
Lemma comp_le p b i : 0 <= b -> rsum 3 (fun i => p i * p i) <= b * b -> (i < 3)%nat -> Rabs (p i) <= b.
Proof.
  intros Hb H Hi. apply Rabs_le_between. cbn [rsum] in H.
  assert (Q : p i * p i <= b * b). { pose proof (Rle_0_sqr (p 0%nat)). pose proof (Rle_0_sqr (p 1%nat)). pose proof (Rle_0_sqr (p 2%nat)). unfold Rsqr in *. cases3 i Hi; lra. }
  split; nra.
Qed.
Lemma bil_bound s p q m a b : (forall i, (i < 6)%nat -> Rabs (s i) <= m) -> 0 <= a -> 0 <= b ->
  rsum 3 (fun i => p i * p i) <= a * a -> rsum 3 (fun i => q i * q i) <= b * b -> Rabs (bil s p q) <= 9 * m * a * b.
Proof.
  intros Hs Ha Hb Hp Hq. pose proof (t2_small s m Hs) as T.
  assert (G : forall i j, (i < 3)%nat -> (j < 3)%nat -> Rabs (p i * t2 (usym s) i j * q j) <= m * a * b).
  { intros i j Hi Hj. rewrite !Rabs_mult. pose proof (comp_le p a i Ha Hp Hi). pose proof (comp_le q b j Hb Hq Hj). pose proof (T i j Hi Hj).
    pose proof (Rabs_pos (p i)). pose proof (Rabs_pos (q j)). pose proof (Rabs_pos (t2 (usym s) i j)).
    apply Rle_trans with (a * m * b); [|lra]. apply Rmult_le_compat; try assumption; [apply Rmult_le_pos; assumption|]. apply Rmult_le_compat; assumption. }
  unfold bil. cbn [rsum].
  repeat match goal with |- context [p ?i * t2 (usym s) ?i ?j * q ?j] => 
     let H := fresh in pose proof (G i j ltac:(lia) ltac:(lia)) as H; apply Rabs_le_between in H;
     let x := fresh "x" in set (x := p i * t2 (usym s) i j * q j) in * end.
  apply Rabs_le_between. lra.
Qed.
Lemma bil_plus_l s p q r : bil s (fun i => p i + q i) r = bil s p r + bil s q r.
Proof. unfold bil. rewrite <- rsum_plus. apply rsum_ext. intros i Hi. rewrite <- rsum_plus. apply rsum_ext. intros; ring. Qed.
Lemma bil_sym s p q : bil s p q = bil s q p.
Proof.
  unfold bil. rewrite rsum_swap. apply rsum_ext. intros i Hi. apply rsum_ext. intros j Hj. pose proof (usym_is_sym s i j Hi Hj) as E. rewrite E. ring.
Qed.
Lemma bil_scal_l s c p r : bil s (fun i => c * p i) r = c * bil s p r.
Proof. unfold bil. rewrite <- rsum_scal. apply rsum_ext. intros i Hi. rewrite <- rsum_scal. apply rsum_ext. intros; ring. Qed.
(** Rayleigh perturbation bound *)
Lemma perturb eigv eigw s0 v w s l m : eig_ok eigv eigw -> eigv s0 = Some v -> eigw s0 = Some w -> top s l ->
  (forall i, (i < 6)%nat -> Rabs (s i - s0 i) <= m) ->
  l <= v 2%nat + 9 * m /\
  (v 1%nat < v 2%nat -> 36 * m <= v 2%nat - v 1%nat -> 0 <= l - normal_stress s (row w 2) <= 2 * (9 * m) * (9 * m) / (v 2%nat - v 1%nat)).
Proof.
  intros H Ev Ew [(y & Hy & Ey) B] Hm. destruct (eig_top eigv eigw s0 v w H Ev Ew) as (U & E & T & Lv). set (z := row w 2) in *.
  assert (Hd : forall i, (i < 6)%nat -> Rabs (vsub s s0 i) <= m) by (intros i Hi; apply Hm, Hi).
  assert (U1 : rsum 3 (fun i => y i * y i) <= 1 * 1) by (rewrite Hy; lra). assert (U2 : rsum 3 (fun i => z i * z i) <= 1 * 1) by (rewrite U; lra).
  destruct (T y Hy) as [C1 C2]. set (c := rsum 3 (fun i => y i * z i)) in *.
  assert (S1 : normal_stress s y = normal_stress s0 y + bil (vsub s s0) y y) by (rewrite bil_sub, !bil_diag; ring).
  pose proof (bil_bound _ y y m 1 1 Hd ltac:(lra) ltac:(lra) U1 U1) as B1. apply Rabs_le_between in B1.
  split; [rewrite <- Ey, S1; nra|]. intros Hg Hm4. split; [specialize (B z U); lra|].
  assert (S2 : normal_stress s z = v 2%nat + bil (vsub s s0) z z) by (rewrite bil_sub, !bil_diag, <- E, bil_diag; ring).
  pose (r := fun i => y i - c * z i). pose (b := sqrt (1 - c * c)). assert (Hb : 0 <= b) by apply sqrt_pos. assert (Hbb : b * b = 1 - c * c) by (apply sqrt_sqrt; lra).
  assert (Ur : rsum 3 (fun i => r i * r i) <= b * b).
  { rewrite Hbb. rewrite (rsum_ext 3 _ (fun i => y i * y i + c * c * (z i * z i) - 2 * c * (y i * z i))) by (intros; unfold r; ring).
    rewrite rsum_minus, rsum_plus, !rsum_scal, Hy, U. fold c. lra. }
  assert (Y : bil (vsub s s0) y y = c * c * bil (vsub s s0) z z + 2 * c * bil (vsub s s0) r z + bil (vsub s s0) r r).
  { unfold r. set (d := vsub s s0).
    assert (X : forall p q, bil d (fun i => y i - c * p i) q = bil d y q - c * bil d p q).
    { intros p q. transitivity (bil d (fun i => y i + (- c) * p i) q); [unfold bil; apply rsum_ext; intros; apply rsum_ext; intros; ring|]. rewrite bil_plus_l, bil_scal_l. ring. }
    rewrite !X. rewrite (bil_sym d y (fun i => y i - c * z i)), (bil_sym d z (fun i => y i - c * z i)), !X, (bil_sym d z y). ring. }
  pose proof (bil_bound _ z z m 1 1 Hd ltac:(lra) ltac:(lra) U2 U2) as B2. apply Rabs_le_between in B2.
  pose proof (bil_bound _ r z m b 1 Hd Hb ltac:(lra) Ur U2) as B3. apply Rabs_le_between in B3.
  pose proof (bil_bound _ r r m b b Hd Hb Hb Ur Ur) as B4. apply Rabs_le_between in B4.
  rewrite <- Ey, S1, S2, Y.
  set (Z := bil (vsub s s0) z z) in *. set (Rz := bil (vsub s s0) r z) in *. set (Rr := bil (vsub s s0) r r) in *. set (g := v 2%nat - v 1%nat) in *.
  assert (Hm0 : 0 <= m) by (eapply Rle_trans; [apply Rabs_pos|apply (Hm 0%nat); lia]). set (M := 9 * m) in *. assert (HM : 0 <= M) by (unfold M; lra).
  assert (Q1 : c * Rz <= b * M). { assert (-1 <= c <= 1) by (split; nra). assert (- (b * M) <= Rz <= b * M) by (split; lra).
     destruct (Rle_dec 0 c); nra. }
  assert (Q2 : (c * c - 1) * Z <= b * b * M). { replace (c * c - 1) with (- (b * b)) by lra. assert (- M <= Z) by lra. pose proof (Rle_0_sqr b) as Sb. unfold Rsqr in Sb. assert (0 <= b * b * (Z + M)) by (apply Rmult_le_pos; lra). lra. }
  assert (Q3 : Rr <= b * b * M) by lra.
  apply Rle_trans with (- g * (b * b) + 2 * M * (b * b) + 2 * b * M); [rewrite <- Hbb in C2; lra|].
  assert (Hg' : 0 < g) by (unfold g; lra).
  apply Rle_trans with (- (g / 2) * (b * b) + 2 * b * M).
  - assert (2 * M <= g / 2) by (unfold M; lra). nra.
  - assert (Sq : 0 <= (g * b - 2 * M) * (g * b - 2 * M) / (2 * g)) by (apply Rmult_le_pos; [apply Rle_0_sqr|left; apply Rinv_0_lt_compat; lra]).
    replace ((g * b - 2 * M) * (g * b - 2 * M) / (2 * g)) with (g / 2 * (b * b) - 2 * b * M + 2 * M * M / g) in Sq by (field; lra). lra.
Qed.
Lemma path_lip (s : R -> vec) (u : R) vs : path 6 s u vs -> exists L, 0 <= L /\ locally u (fun x => forall i, (i < 6)%nat -> Rabs (s x i - s u i) <= L * Rabs (x - u)).
Proof.
  intros H. pose (l := fun i => Rabs (vs i) + 1). exists (l 0%nat + l 1%nat + l 2%nat + l 3%nat + l 4%nat + l 5%nat).
  assert (Hl : forall i, 0 <= l i) by (intros i; unfold l; pose proof (Rabs_pos (vs i)); lra). split; [pose proof (Hl 0%nat); pose proof (Hl 1%nat); pose proof (Hl 2%nat); pose proof (Hl 3%nat); pose proof (Hl 4%nat); pose proof (Hl 5%nat); lra|].
  assert (G : forall n, (n <= 6)%nat -> locally u (fun x => forall i, (i < n)%nat -> Rabs (s x i - s u i) <= l i * Rabs (x - u))).
  { induction n as [|n IH]; intros Hn; [apply filter_forall; intros; lia|].
    assert (L1 := IH ltac:(lia)). assert (L2 := derive_lip (fun x => s x n) u (vs n) (H n ltac:(lia))).
    refine (filter_imp _ _ _ (filter_and _ _ L1 L2)). intros x (X1 & X2) i Hi. cbv beta in X2.
    destruct (Nat.eq_dec i n) as [->|]; [exact X2|apply X1; lia]. }
  assert (G6 := G 6%nat ltac:(lia)). refine (filter_imp _ _ _ G6). intros x X i Hi. eapply Rle_trans; [apply X, Hi|]. apply Rmult_le_compat_r; [apply Rabs_pos|].
  pose proof (Hl 0%nat); pose proof (Hl 1%nat); pose proof (Hl 2%nat); pose proof (Hl 3%nat); pose proof (Hl 4%nat); pose proof (Hl 5%nat). cases6 i Hi; lra.
Qed.
Lemma loc_small (u L k : R) : 0 <= L -> 0 < k -> locally u (fun x : R => L * Rabs (x - u) <= k).
Proof.
  intros HL Hk. assert (P : 0 < k / (L + 1)) by (apply Rdiv_lt_0_compat; lra). exists (mkposreal _ P). intros x Hx.
  unfold ball in Hx; cbn in Hx. unfold AbsRing_ball, abs, minus, plus, opp in Hx; cbn in Hx. change (Rabs (x - u) < k / (L + 1)) in Hx.
  apply (Rmult_lt_compat_l (L + 1)) in Hx; [|lra]. replace ((L + 1) * (k / (L + 1))) with k in Hx by (field; lra). pose proof (Rabs_pos (x - u)). nra.
Qed.
Lemma D_normal s u vs n : path 6 s u vs -> is_derive (fun x => normal_stress (s x) n) u (normal_stress vs n).
Proof.
  intros H. unfold normal_stress. apply D_rsum. intros i Hi. apply D_rsum. intros j Hj.
  assert (D : is_derive (fun x => t2 (usym (s x)) i j) u (t2 (usym vs) i j)).
  { cases3 i Hi; cases3 j Hj; cbv [t2 usym Nat.add Nat.mul]; first [apply H; lia|eapply D_eq; [apply D_mult; [apply H; lia|apply D_const]|cbv beta; unfold Rdiv; ring]]. }
  eapply D_eq; [apply D_mult; [apply D_mult; [apply D_const|exact D]|apply D_const]|cbv beta; ring].
Qed.
Lemma dot_outer n vs : dot 6 (sym (fun k => n (k / 3)%nat * n (k mod 3)%nat)) vs = normal_stress vs n.
Proof. unfold normal_stress. cbv [sym dot rsum t2 usym Nat.add Nat.mul Nat.div Nat.modulo Nat.divmod fst snd Nat.sub]. rewrite !div_r2. field. Qed.
Lemma principal_exact eigv eigw : eig_ok eigv eigw ->
  es_exact (fun s => exists v, eigv s = Some v /\ (v 2%nat < 0 \/ (0 < v 2%nat /\ v 1%nat < v 2%nat))) (MaxPrincipalES eigv eigw).
Proof.
  intros HK s u vs Hs (v & Ev & HP). destruct (HK (s u)) as (_ & w & _ & Ew & _).
  destruct (path_lip s u vs Hs) as (L & HL & LL).
  pose (lam := fun x => match eigv (s x) with Some v' => v' 2%nat | None => 0 end).
  assert (HT : forall x, top (s x) (lam x) /\ exists v', eigv (s x) = Some v' /\ v' 2%nat = lam x).
  { intros x. unfold lam. destruct (HK (s x)) as (v' & _ & Ev' & _). rewrite Ev'. split; [exact (eig_is_top eigv eigw _ _ HK Ev')|exists v'; auto]. }
  assert (Lu : lam u = v 2%nat) by (unfold lam; rewrite Ev; reflexivity).
  destruct HP as [Hn|[Hp Hg]].
  - exists (fun _ => 0), (fun _ => 0). split; [|split].
    + assert (LS := loc_small u (9 * L) (- v 2%nat / 2) ltac:(lra) ltac:(lra)). refine (filter_imp _ _ _ (filter_and _ _ LL LS)). intros x (X1 & X2).
      destruct (HT x) as [Tx (v' & Ex & El)]. destruct (perturb eigv eigw (s u) v w (s x) (lam x) _ HK Ev Ew Tx X1) as [B _].
      cbn [es_v MaxPrincipalES]. rewrite Ex, El. destruct (Rlt_dec (lam x) 0) as [G|G]; [reflexivity|]. exfalso. lra.
    + cbn [es_d MaxPrincipalES]. rewrite Ev. destruct (Rlt_dec (v 2%nat) 0); [reflexivity|contradiction].
    + eapply D_eq; [apply D_const|symmetry; apply dot_zero6].
  - set (z := row w 2). destruct (eig_top eigv eigw (s u) v w HK Ev Ew) as (U & E & _ & _). fold z in U, E. set (g := v 2%nat - v 1%nat).
    assert (Hg' : 0 < g) by (unfold g; lra).
    assert (Dh : is_derive (fun x => lam x - normal_stress (s x) z) u 0).
    { apply (derive_sq _ u (2 * (9 * L) * (9 * L) / g)); [rewrite Lu, E; ring|].
      assert (LS := loc_small u (36 * L) g ltac:(lra) Hg'). refine (filter_imp _ _ _ (filter_and _ _ LL LS)). intros x (X1 & X2). destruct (HT x) as [Tx _].
      destruct (perturb eigv eigw (s u) v w (s x) (lam x) _ HK Ev Ew Tx X1) as [_ B]. specialize (B Hg ltac:(fold g; lra)). fold z g in B. split; [apply B|].
      eapply Rle_trans; [apply B|]. right. assert (Q : (x - u) * (x - u) = Rabs (x - u) * Rabs (x - u)) by (rewrite <- Rabs_mult; symmetry; apply Rabs_pos_eq, Rle_0_sqr).
      rewrite Q. field. lra. }
    assert (Dl : is_derive lam u (normal_stress vs z)).
    { apply (D_ext (fun x => (lam x - normal_stress (s x) z) + normal_stress (s x) z)); [intros x; ring|].
      eapply D_eq; [apply D_plus; [exact Dh|apply D_normal; exact Hs]|ring]. }
    exists lam. eexists. split; [|split].
    + assert (LG := loc_gt lam u _ 0 Dl ltac:(lra)). refine (filter_imp _ _ _ LG). intros x Hx. destruct (HT x) as [_ (v' & Ex & El)]. cbn [es_v MaxPrincipalES]. rewrite Ex, El. destruct (Rlt_dec (lam x) 0); [lra|reflexivity].
    + cbn [es_d MaxPrincipalES]. rewrite Ev. destruct (Rlt_dec (v 2%nat) 0); [exfalso; lra|]. rewrite Ew. reflexivity.
    + eapply D_eq; [exact Dl|]. rewrite <- (dot_outer z vs). apply dot_ext; [|intros i Hi; reflexivity].
      assert (Nf : w (6 + 0)%nat * w (6 + 0)%nat + w (6 + 1)%nat * w (6 + 1)%nat + w (6 + 2)%nat * w (6 + 2)%nat = 1).
      { unfold unit3, z, row in U. cbn in U. cbn. lra. }
      intros i Hi. rewrite Nf. destruct (Req_EM_T 1 0); [lra|].
      unfold z, row. cbv zeta. cases6 i Hi; cbv [sym Nat.div Nat.modulo Nat.divmod fst snd Nat.sub Nat.add Nat.mul]; field.
Qed.

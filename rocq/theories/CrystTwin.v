(** Twin systems *)
From Coq Require Import String ZArith Lra Lia Psatz Bool.
From Verif Require Import Base Diff NemlMathModel NemlMathSpec NemlMathProofs RotModel RotSpec RotProofs RotConv RotTensor TensorModel TensorSpec TensorProofs.
From Verif Require Import CrystModel CrystSpec CrystProofs CrystMiller CrystLattice.

(** a half turn about the unit vector m *)
Lemma half_turn : forall m q v i, unit_vec m -> setAxisAngle m 180 "degrees" = Some q -> (i < 3)%nat ->
  apply_v q v i = 2 * ndot m v * m i - v i.
Proof.
  intros m q v i U E Hi. rewrite axis_angle_degrees in E. replace (180 * PI / 180) with PI in E by field.
  rewrite (axis_angle_turns m PI q v i U E Hi). unfold turned. rewrite cos_PI, sin_PI. ring.
Qed.
(** Bessel's inequality for two orthogonal unit vectors *)
Lemma bessel : forall a m l, unit_vec a -> unit_vec m -> unit_vec l -> ndot a m = 0 -> ndot l m * ndot l m + ndot l a * ndot l a <= 1.
Proof.
  intros a m l Ua Um Ul O.
  set (d := fun k => l k - ndot l m * m k - ndot l a * a k).
  assert (P : 0 <= ndot d d). { unfold ndot; cbn. pose proof (Rle_0_sqr (d 0%nat)). pose proof (Rle_0_sqr (d 1%nat)). pose proof (Rle_0_sqr (d 2%nat)). unfold Rsqr in *. lra. }
  assert (E : ndot d d = ndot l l - 2 * ndot l m * ndot l m - 2 * ndot l a * ndot l a + ndot l m * ndot l m * ndot m m + ndot l a * ndot l a * ndot a a + 2 * ndot l m * ndot l a * ndot a m).
  { unfold d. unfold ndot; cbn. ring. }
  unfold unit_vec in *. rewrite E, Ua, Um, Ul, O in P. lra.
Qed.
Lemma twin_candidate_sound : forall K1 e1 K2 e2 s sh, twin_candidate K1 e1 K2 e2 = Some (s, sh) ->
  s_burgers s = e1 /\ normalize3 e1 = Some (s_dir s) /\ normalize3 K1 = Some (s_plane s) /\
  unit_vec (s_dir s) /\ unit_vec (s_plane s) /\ Rabs (ndot (s_dir s) (s_plane s)) <= 0.0046 /\
  (forall v i, (i < 3)%nat -> apply_v (s_reor s) v i = 2 * ndot (s_plane s) v * s_plane s i - v i) /\
  exists g, normalize3 e2 = Some g /\ 1 / 2 < ndot g (s_plane s) /\ sh = sqrt (4 * (1 / (ndot g (s_plane s) * ndot g (s_plane s)) - 1)).
Proof.
  intros K1 e1 K2 e2 s sh H. unfold twin_candidate in H.
  destruct (normalize3 e1) as [l|] eqn:El; [|discriminate]. destruct (normalize3 K1) as [m|] eqn:Em; [|discriminate].
  destruct (normalize3 K2) as [n|] eqn:En; [|discriminate]. destruct (normalize3 e2) as [g|] eqn:Eg; [|discriminate]. cbv zeta in H.
  destruct (close (dot3 g m) 0) eqn:Cv; [discriminate|].
  destruct (normalize3 (fun k => 2 * (m k - g k / dot3 g m))) as [ltr|] eqn:Et; [|discriminate].
  destruct (close (Rabs (dot3 ltr l)) 1) eqn:Cl; cbn [negb] in H; [|discriminate].
  destruct (normalize3 (cross3 l m)) as [P|]; [|discriminate]. destruct (normalize3 (cross3 g P)) as [ntr|]; [|discriminate].
  destruct (close (Rabs (dot3 ntr n)) 1) eqn:Cn; cbn [negb] in H; [|discriminate].
  destruct (Rlt_dec (dot3 l g) 0); [|discriminate]. destruct (Rlt_dec 0.5 (dot3 l n)); [|discriminate].
  destruct (Rlt_dec 0.5 (dot3 g m)) as [G|]; [|discriminate].
  destruct (setAxisAngle m 180 "degrees") as [q|] eqn:Eq; [|discriminate]. injection H as <- <-. cbn [s_burgers s_dir s_plane s_reor].
  destruct (normalize3_sound _ _ El) as (Ul & _). destruct (normalize3_sound _ _ Em) as (Um & _). destruct (normalize3_sound _ _ Et) as (Ut & c & Hc & Xt).
  rewrite dot3_ndot in *.
  assert (O : ndot ltr m = 0).
  { assert (Z : c * ndot ltr m = 2 * (ndot m m - ndot g m / ndot g m)).
    { transitivity (ndot (fun k => c * ltr k) m); [unfold ndot; cbn; ring|]. rewrite (ndot_ext _ _ _ (fun i => eq_sym (Xt i))).
      unfold Rdiv. generalize (/ ndot g m). intros w. unfold ndot; cbn. ring. }
    rewrite Um in Z. replace (ndot g m / ndot g m) with 1 in Z by (field; lra).
    apply (Rmult_eq_reg_l c); [lra|lra]. }
  repeat split; auto.
  - apply close_iff in Cl. rewrite ?dot3_ndot, Rabs_R1 in Cl. pose proof (bessel ltr m l Ut Um Ul O) as B.
    rewrite (ndot_comm l ltr) in B.
    assert (Y : 0.99998999 <= Rabs (ndot ltr l)) by (pose proof (Rle_abs (- (Rabs (ndot ltr l) - 1))) as W; rewrite Rabs_Ropp in W; lra).
    assert (Y2 : 0.99998999 * 0.99998999 <= ndot ltr l * ndot ltr l).
    { replace (ndot ltr l * ndot ltr l) with (Rabs (ndot ltr l) * Rabs (ndot ltr l)) by (rewrite <- Rabs_mult; apply Rabs_pos_eq, Rle_0_sqr). nra. }
    apply Rsqr_incr_0_var; [|lra]. rewrite <- Rsqr_abs. unfold Rsqr. lra.
  - intros v i Hi. apply half_turn; auto.
  - exists g. repeat split; auto. lra.
Qed.
(** the shear that goes with a plane normal m and a conjugate direction g leaves the length of g unchanged *)
Lemma characteristic_shear : forall m g l, unit_vec m -> unit_vec g -> 0 < ndot g m -> ndot g m < 1 ->
  normalize3 (fun k => 2 * (m k - g k / ndot g m)) = Some l ->
  let sh := sqrt (4 * (1 / (ndot g m * ndot g m) - 1)) in
  ndot l m = 0 /\ 0 < sh /\ let h := fun k => g k + sh * ndot m g * l k in unit_vec h /\ exists k, (k < 3)%nat /\ h k <> g k.
Proof.
  intros m g l Um Ug G0 G1 E. remember (ndot g m) as v eqn:Ev. intros sh.
  assert (V2 : 0 < 1 / (v * v) - 1).
  { assert (v * v < 1) by nra. assert (0 < v * v) by nra. assert (1 < / (v * v)) by (rewrite <- Rinv_1; apply Rinv_lt_contravar; lra). unfold Rdiv; lra. }
  assert (S2 : sh * sh = 4 * (1 / (v * v) - 1)) by (unfold sh; apply sqrt_sqrt; lra).
  assert (S0 : 0 < sh) by (unfold sh; apply sqrt_lt_R0; lra).
  assert (N : ndot (fun k => 2 * (m k - g k / v)) (fun k => 2 * (m k - g k / v)) = sh * sh).
  { rewrite S2. transitivity (4 * (ndot m m - 2 * ndot g m / v + ndot g g / (v * v))).
    - unfold ndot; cbn. field. lra.
    - unfold unit_vec in *. rewrite Um, Ug, <- Ev. field. lra. }
  assert (NN : norm3 (fun k => 2 * (m k - g k / v)) = sh).
  { unfold norm3. rewrite dot3_ndot, N. apply sqrt_square. lra. }
  unfold normalize3 in E. rewrite NN in E. destruct (Req_EM_T sh 0); [lra|]. injection E as El.
  assert (Li : forall i, l i = 2 * (m i - g i / v) / sh) by (intros i; rewrite <- El; reflexivity). clear El.
  assert (LM : forall w, ndot l w = 2 * (ndot m w - ndot g w / v) / sh).
  { intros w. unfold ndot; cbn. rewrite !Li. field. lra. }
  assert (LL : ndot l l = 1).
  { transitivity (ndot (fun k => 2 * (m k - g k / v)) (fun k => 2 * (m k - g k / v)) / (sh * sh)).
    - unfold ndot; cbn. rewrite !Li. field. lra.
    - rewrite N. field. lra. }
  assert (D0 : ndot l m = 0).
  { rewrite LM. unfold unit_vec in Um. rewrite Um, <- Ev. field. lra. }
  split; [exact D0|]. split; [exact S0|]. intros h.
  assert (Hm : ndot m g = v) by (rewrite Ev; apply ndot_comm).
  assert (LG : sh * ndot l g = 2 * (v - 1 / v)).
  { rewrite LM, Hm. unfold unit_vec in Ug. rewrite Ug. field. lra. }
  split.
  - unfold unit_vec. transitivity (ndot g g + 2 * v * (sh * ndot l g) + v * v * (sh * sh) * ndot l l).
    + assert (GEN : forall c (a b : vec), ndot (fun k => a k + c * b k) (fun k => a k + c * b k) = ndot a a + 2 * c * ndot b a + c * c * ndot b b) by (intros; unfold ndot; cbn; ring).
      unfold h. rewrite Hm. rewrite (GEN (sh * v) g l). ring.
    + unfold unit_vec in Ug. rewrite Ug, LG, S2, LL. field. lra.
  - destruct (Req_dec (l 0%nat) 0) as [L0|L0]; [destruct (Req_dec (l 1%nat) 0) as [L1|L1]; [exists 2%nat|exists 1%nat]|exists 0%nat];
      (split; [lia|]); unfold h; rewrite Hm; intros X.
    + assert (L2 : l 2%nat <> 0). { intros L2. unfold ndot in LL. cbn in LL. rewrite L0, L1, L2 in LL. lra. }
      apply L2. apply (Rmult_eq_reg_l (sh * v)); [lra|]. apply Rgt_not_eq. apply Rmult_lt_0_compat; lra.
    + apply L1. apply (Rmult_eq_reg_l (sh * v)); [lra|]. apply Rgt_not_eq. apply Rmult_lt_0_compat; lra.
    + apply L0. apply (Rmult_eq_reg_l (sh * v)); [lra|]. apply Rgt_not_eq. apply Rmult_lt_0_compat; lra.
Qed.
(** every listed twin system came from a candidate; no two coincide *)
Lemma twin_fold : forall cs acc,
  (forall i j a b, (i < j)%nat -> nth_error (fst acc) i = Some a -> nth_error (fst acc) j = Some b -> twin_same a b = false) ->
  let r := fold_left twin_step cs acc in
  (forall s, In s (fst r) -> In s (fst acc) \/ exists K1 e1 K2 e2 sh, In (K1, e1, K2, e2) cs /\ twin_candidate K1 e1 K2 e2 = Some (s, sh)) /\
  (forall s, In s (fst acc) -> In s (fst r)) /\
  (forall K1 e1 K2 e2 s sh, In (K1, e1, K2, e2) cs -> twin_candidate K1 e1 K2 e2 = Some (s, sh) -> In s (fst r) \/ exists t, In t (fst r) /\ twin_same t s = true) /\
  (forall i j a b, (i < j)%nat -> nth_error (fst r) i = Some a -> nth_error (fst r) j = Some b -> twin_same a b = false) /\
  ((fst r = fst acc /\ snd r = snd acc) \/ exists K1 e1 K2 e2 s, In (K1, e1, K2, e2) cs /\ twin_candidate K1 e1 K2 e2 = Some (s, snd r) /\ In s (fst r)).
Proof.
  induction cs as [|c cs IH]; intros acc D r.
  { cbn in r; subst r. repeat split; auto. intros ? ? ? ? ? ? []. }
  unfold r; cbn [fold_left]; clear r. destruct c as (((K1, e1), K2), e2).
  assert (ST : twin_step acc (K1, e1, K2, e2) = acc \/ exists s sh, twin_candidate K1 e1 K2 e2 = Some (s, sh) /\ twin_step acc (K1, e1, K2, e2) = (fst acc ++ [s], sh) /\ existsb (fun t => twin_same t s) (fst acc) = false).
  { unfold twin_step. destruct (twin_candidate K1 e1 K2 e2) as [(s, sh)|]; [|left; reflexivity].
    destruct (existsb _ (fst acc)) eqn:X; [left; reflexivity|right; exists s, sh; auto]. }
  assert (D' : forall i j a b, (i < j)%nat -> nth_error (fst (twin_step acc (K1, e1, K2, e2))) i = Some a -> nth_error (fst (twin_step acc (K1, e1, K2, e2))) j = Some b -> twin_same a b = false).
  { destruct ST as [->|(s & sh & _ & -> & X)]; [exact D|]. cbn [fst]. intros i j a b L Ha Hb.
    assert (J : (j < length (fst acc ++ [s]))%nat) by (apply nth_error_Some; congruence). rewrite app_length in J; cbn in J.
    rewrite nth_error_app1 in Ha by lia. destruct (Nat.eq_dec j (length (fst acc))) as [->|N].
    - rewrite nth_error_app2, Nat.sub_diag in Hb by lia. cbn in Hb. injection Hb as <-.
      destruct (twin_same a s) eqn:Y; auto. assert (T : existsb (fun t => twin_same t s) (fst acc) = true).
      { apply existsb_exists. exists a. split; [apply (nth_error_In _ i); exact Ha | exact Y]. }
      congruence.
    - rewrite nth_error_app1 in Hb by lia. apply (D i j a b L Ha Hb). }
  destruct (IH _ D') as (S & K & C & E & F). split; [|split; [|split; [|split]]].
  - intros s Hs. destruct (S s Hs) as [G|(x1 & x2 & x3 & x4 & x5 & G & Y)]; [|right; exists x1, x2, x3, x4, x5; split; [right; exact G|exact Y]].
    destruct ST as [ST|(t & sh & T & ST & _)]; rewrite ST in G; [left; exact G|].
    cbn [fst] in G. apply in_app_or in G as [G|[<-|[]]]; [left; exact G|]. right. exists K1, e1, K2, e2, sh. split; [left; reflexivity|exact T].
  - intros s Hs. apply K. destruct ST as [->|(t & sh & T & -> & _)]; [exact Hs|]. cbn. apply in_or_app; auto.
  - intros x1 x2 x3 x4 s sh [H|H] Y; [|eapply C; eauto]. injection H as <- <- <- <-.
    assert (G : In s (fst (twin_step acc (K1, e1, K2, e2))) \/ exists t, In t (fst (twin_step acc (K1, e1, K2, e2))) /\ twin_same t s = true).
    { unfold twin_step. rewrite Y. destruct (existsb _ (fst acc)) eqn:X.
      - right. apply existsb_exists in X. exact X.
      - left. cbn. apply in_or_app; right; left; reflexivity. }
    destruct G as [G|(t & G & Z)]; [left|right; exists t; split; auto]; apply K; exact G.
  - exact E.
  - destruct F as [(F1 & F2)|(x1 & x2 & x3 & x4 & s & G & Y & Z)]; [|right; exists x1, x2, x3, x4, s; split; [right; exact G|auto]].
    destruct ST as [ST|(t & sh & T & ST & _)]; rewrite ST in F1, F2 |- *; [left; auto|]. right. exists K1, e1, K2, e2, t.
    split; [left; reflexivity|]. rewrite F2; cbn [snd]. split; [exact T|]. rewrite F1. cbn. apply in_or_app; right; left; reflexivity.
Qed.
Definition twin_sources (ops : list quat) (e1 K1 e2 K2 : vec) (c : vec * vec * vec * vec) : Prop :=
  let '(k1, x1, k2, x2) := c in In k1 (equivalent_vectors ops K1) /\ In x1 (equivalent_vectors ops e1) /\
    In k2 (equivalent_vectors ops K2) /\ In x2 (equivalent_vectors ops e2).
Lemma twin_systems_ok : forall ops e1 K1 e2 K2, let r := twin_systems ops e1 K1 e2 K2 in
  (forall s, In s (fst r) -> exists k1 x1 k2 x2 sh, twin_sources ops e1 K1 e2 K2 (k1, x1, k2, x2) /\ twin_candidate k1 x1 k2 x2 = Some (s, sh)) /\
  (forall k1 x1 k2 x2 s sh, twin_sources ops e1 K1 e2 K2 (k1, x1, k2, x2) -> twin_candidate k1 x1 k2 x2 = Some (s, sh) ->
     exists t, In t (fst r) /\ (t = s \/ twin_same t s = true)) /\
  (forall i j a b, (i < j)%nat -> nth_error (fst r) i = Some a -> nth_error (fst r) j = Some b -> twin_same a b = false).
Proof.
  intros ops e1 K1 e2 K2 r. unfold r, twin_systems.
  match goal with |- context [fold_left twin_step ?cs _] => set (l := cs) end.
  assert (M : forall c, In c l <-> twin_sources ops e1 K1 e2 K2 c).
  { intros (((k1, x1), k2), x2). unfold l, twin_sources. rewrite in_flat_map. split.
    - intros (a & A & H). apply in_flat_map in H as (b & B & H). apply in_flat_map in H as (c & C & H). apply in_map_iff in H as (d & E & D). injection E as <- <- <- <-. auto.
    - intros (A & B & C & D). exists k1; split; auto. apply in_flat_map. exists x1; split; auto. apply in_flat_map. exists k2; split; auto. apply in_map_iff. exists x2; auto. }
  destruct (twin_fold l ([], 0)) as (S & _ & C & D & _). { intros i j a b _ H; destruct i; discriminate. }
  split; [|split; [|exact D]].
  - intros s Hs. destruct (S s Hs) as [[]|(k1 & x1 & k2 & x2 & sh & G & Y)]. exists k1, x1, k2, x2, sh. split; [apply M; exact G|exact Y].
  - intros k1 x1 k2 x2 s sh G Y. apply M in G. destruct (C _ _ _ _ _ _ G Y) as [H|(t & H & Z)]; [exists s|exists t]; auto.
Qed.
Lemma twin_systems_sound : forall ops e1 K1 e2 K2 s, In s (fst (twin_systems ops e1 K1 e2 K2)) ->
  unit_vec (s_dir s) /\ unit_vec (s_plane s) /\ Rabs (ndot (s_dir s) (s_plane s)) <= 0.0046 /\
  (exists R c, In R ops /\ 0 < c /\ s_burgers s = apply_v R e1 /\ forall i, s_burgers s i = c * s_dir s i) /\
  (exists R c, In R ops /\ 0 < c /\ forall i, apply_v R K1 i = c * s_plane s i) /\
  (forall v i, (i < 3)%nat -> apply_v (s_reor s) v i = 2 * ndot (s_plane s) v * s_plane s i - v i).
Proof.
  intros ops e1 K1 e2 K2 s H. destruct (twin_systems_ok ops e1 K1 e2 K2) as (A & _). destruct (A s H) as (k1 & x1 & k2 & x2 & sh & (S1 & S2 & S3 & S4) & T).
  destruct (twin_candidate_sound _ _ _ _ _ _ T) as (B1 & B2 & B3 & B4 & B5 & B6 & B7 & _).
  destruct (equivalent_ok ops e1) as (E1 & _). destruct (E1 x1 S2) as (R & HR & ER).
  destruct (equivalent_ok ops K1) as (E2 & _). destruct (E2 k1 S1) as (R' & HR' & ER').
  destruct (normalize3_sound _ _ B2) as (_ & c & C & X). destruct (normalize3_sound _ _ B3) as (_ & c' & C' & X').
  split; [exact B4|]. split; [exact B5|]. split; [exact B6|]. split; [|split; [|exact B7]].
  - exists R, c. split; [exact HR|]. split; [exact C|]. split; [congruence|]. intros i. rewrite B1. apply X.
  - exists R', c'. split; [exact HR'|]. split; [exact C'|]. intros i. rewrite <- ER'. apply X'.
Qed.

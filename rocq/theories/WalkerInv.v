From Verif Require Import Base.
From Verif Require Import Diff.
From Verif Require Import NemlMathModel NemlMathSpec NemlMathProofs SurfModel SurfSpec SurfProofs HardModel HardProofs PlastModel PlastSpec PlastProofs RiProofs ViscoModel ViscoSpec ViscoProofs TensorModel TensorSpec TensorProofs WalkerModel WalkerSpec WalkerProofs WalkerDeriv WalkerVars WalkerMore.
From Verif Require Import SolverModel SubstepModel SubstepSpec.

(** ** Inequalities *)
Lemma cauchy n p q : dot n p q <= norm2 n p * norm2 n q.
Proof.
  assert (Np := norm2_nonneg n p). assert (Nq := norm2_nonneg n q). assert (Sp := norm2_sqr n p). assert (Sq := norm2_sqr n q).
  set (P := norm2 n p) in *. set (Q := norm2 n q) in *.
  assert (H : 0 <= dot n (fun i => Q * p i - P * q i) (fun i => Q * p i - P * q i)).
  { unfold dot. apply rsum_nonneg. intros i _. apply Rle_0_sqr. }
  assert (E : dot n (fun i => Q * p i - P * q i) (fun i => Q * p i - P * q i) = 2 * (P * Q) * (P * Q - dot n p q)).
  { transitivity (Q * Q * dot n p p - 2 * P * Q * dot n p q + P * P * dot n q q); [|rewrite <- Sp, <- Sq; ring].
    unfold dot. rewrite <- !rsum_scal, <- rsum_minus, <- rsum_plus. apply rsum_ext. intros. ring. }
  rewrite E in H. destruct (Rlt_dec 0 (P * Q)) as [L|L].
  - assert (0 <= P * Q - dot n p q); [|lra]. apply Rmult_le_reg_l with (2 * (P * Q)); lra.
  - assert (Z : P * Q = 0) by (assert (0 <= P * Q) by (apply Rmult_le_pos; assumption); lra).
    assert (Zd : dot n p q = 0).
    { apply Rmult_integral in Z. destruct Z as [Z|Z].
      - assert (ZZ : dot n p p = 0) by (rewrite <- Sp, Z; ring). unfold dot. rewrite (rsum_ext n _ (fun _ => 0)), rsum_0; [reflexivity|].
        intros i Hi. rewrite (dot_zero_inv n p ZZ i Hi). unfold vzero. ring.
      - assert (ZZ : dot n q q = 0) by (rewrite <- Sq, Z; ring). unfold dot. rewrite (rsum_ext n _ (fun _ => 0)), rsum_0; [reflexivity|].
        intros i Hi. rewrite (dot_zero_inv n q ZZ i Hi). unfold vzero. ring. }
    rewrite Zd, Z. lra.
Qed.
Lemma rsum_term_le n f i : (i < n)%nat -> (forall j, (j < n)%nat -> 0 <= f j) -> f i <= rsum n f.
Proof.
  induction n as [|n IH]; intros Hi Hf; [lia|]. cbn [rsum]. destruct (Nat.eq_dec i n) as [->|N].
  - assert (0 <= rsum n f) by (apply rsum_nonneg; intros; apply Hf; lia). lra.
  - assert (f i <= rsum n f) by (apply IH; [lia|intros; apply Hf; lia]). specialize (Hf n ltac:(lia)). lra.
Qed.
Lemma comp_le_norm n r j : (j < n)%nat -> Rabs (r j) <= norm2 n r.
Proof.
  intros Hj. rewrite <- sqrt_Rsqr_abs. unfold norm2. apply sqrt_le_1_alt. unfold Rsqr, dot.
  apply (rsum_term_le n (fun i => r i * r i) j Hj). intros i _. apply Rle_0_sqr.
Qed.
Lemma block_le_norm m r i : (i < m)%nat -> norm2 6 (wX r i) <= norm2 (3 + 6 * m) r.
Proof.
  intros Hi. unfold norm2. apply sqrt_le_1_alt. rewrite dot_hist.
  assert (dot 6 (wX r i) (wX r i) <= rsum m (fun i => dot 6 (wX r i) (wX r i))).
  { apply (rsum_term_le m (fun i => dot 6 (wX r i) (wX r i)) i Hi). intros j _. unfold dot. apply rsum_nonneg. intros k _. apply Rle_0_sqr. }
  assert (0 <= r 0%nat * r 0%nat) by apply Rle_0_sqr. assert (0 <= r 1%nat * r 1%nat) by apply Rle_0_sqr. assert (0 <= r 2%nat * r 2%nat) by apply Rle_0_sqr. lra.
Qed.
Lemma dirv_le d : dot 6 (dirv d) (dirv d) <= 3 / 2.
Proof.
  destruct (Req_EM_T (norm2 6 d) 0) as [E|E].
  - unfold dot. rewrite (rsum_ext 6 _ (fun _ => 0)), rsum_0; [lra|]. intros i Hi. unfold dirv. rewrite (div_zero_norm d i Hi E). unfold Rdiv. ring.
  - rewrite dirv_norm by exact E. lra.
Qed.
Lemma w_g_le w s a : dot 6 (w_g w s a) (w_g w s a) <= 3 / 2.
Proof.
  replace (dot 6 (w_g w s a) (w_g w s a)) with (dot 6 (dirv (w_d w s a)) (dirv (w_d w s a))); [apply dirv_le|].
  unfold dot. apply rsum_ext. intros i Hi. rewrite w_g_dirv by exact Hi. reflexivity.
Qed.

(** ** The flow *)
Lemma w_g_length w s a : sym_norm (w_d w s a) <> 0 -> sqrt (2 / 3) * sym_norm (w_g w s a) = 1.
Proof.
  intros H. rewrite !wsn in *. rewrite (norm2_vext 6 _ (dirv (w_d w s a))) by (intros; apply w_g_dirv; assumption).
  unfold norm2. rewrite dirv_norm by exact H. rewrite <- sqrt_mult_alt by lra. replace (2 / 3 * (3 / 2)) with 1 by field. apply sqrt_1.
Qed.
Lemma w_y_facts w s a T : 0 < w_pre w a T -> 0 <= w_y w s a T /\ (w_y w s a T = 0 <-> w_over w s a T <= 0).
Proof.
  intros Hp. unfold w_y, w_flow. destruct (Rle_dec (w_over w s a T) 0) as [L|L].
  - split; [lra|]. split; [intros _; exact L|intros _; ring].
  - rewrite Rabs_pos_eq by lra. assert (0 < cpow (w_over w s a T) (w_n w T)) by (rewrite cpow_pos by lra; apply exp_pos).
    assert (0 < w_pre w a T * cpow (w_over w s a T) (w_n w T)) by (apply Rmult_lt_0_compat; assumption). split; [lra|]. split; intros; lra.
Qed.
(** the plastic strain rate does work on the stress less the backstresses *)
Lemma w_dissipation w s a : dot 6 (w_g w s a) (w_d w s a) = sqrt (3 / 2) * sym_norm (w_d w s a).
Proof.
  rewrite (dot_ext_l 6 _ (dirv (w_d w s a))) by (intros; apply w_g_dirv; assumption). rewrite wsn. unfold dirv.
  rewrite (dot_ext_l 6 _ (fun i => (sqrt (3 / 2) / norm2 6 (w_d w s a)) * w_d w s a i)) by (intros; unfold Rdiv; ring).
  rewrite dot_scal, <- norm2_sqr. destruct (Req_EM_T (norm2 6 (w_d w s a)) 0) as [E|E]; [rewrite E; ring|field; exact E].
Qed.

(** ** Backstresses stay deviatoric: rates on deviatoric states are deviatoric *)
Lemma traceless_lin p q k l : traceless p -> traceless q -> traceless (fun i => k * p i + l * q i).
Proof. unfold traceless. rewrite !wtr. intros H1 H2. replace (_ + _ + _) with (k * (p 0%nat + p 1%nat + p 2%nat) + l * (q 0%nat + q 1%nat + q 2%nat)) by ring. rewrite H1, H2. ring. Qed.
Lemma traceless_ext p q : (forall i, (i < 6)%nat -> p i = q i) -> traceless p -> traceless q.
Proof. unfold traceless. rewrite !wtr. intros H. rewrite !H by lia. auto. Qed.
Lemma fa_traceless c g x : traceless (st_h x) -> traceless (st_g x) -> traceless (kr (kv_p (FAKin c g)) x).
Proof.
  intros Hh Hg. apply (traceless_ext (fun i => 2 / 3 * c (st_T x) * st_g x i + (- g (st_T x)) * st_h x i)); [|apply traceless_lin; assumption].
  intros i _. cbn [kv_p FAKin kr]. ring.
Qed.
Lemma wk_traceless p x : traceless (st_h x) -> traceless (st_g x) ->
  traceless (kr (kv_p (WalkerKin p)) x) /\ traceless (kr (kv_t (WalkerKin p)) x).
Proof.
  intros Hh Hg. split.
  - assert (Hn := traceless_dirv _ (kd_traceless x Hh)).
    assert (Hb : traceless (fun i => (1 - k_b0 p (st_T x)) * st_h x i + (2 / 3 * k_b0 p (st_T x) * dot 6 (dirv (k_d x)) (st_h x)) * dirv (k_d x) i)) by (apply traceless_lin; assumption).
    apply (traceless_ext (fun i => (k_c p x * (2 / 3)) * st_g x i + (- k_c p x / k_L p x) * ((1 - k_b0 p (st_T x)) * st_h x i + (2 / 3 * k_b0 p (st_T x) * dot 6 (dirv (k_d x)) (st_h x)) * dirv (k_d x) i))).
    + intros i Hi. cbn [kv_p WalkerKin kr]. rewrite k_b_val by exact Hi. unfold Rdiv. ring.
    + apply traceless_lin; assumption.
  - cbn [kv_t WalkerKin kr]. cbv zeta. destruct (k_off x); [unfold traceless; rewrite wtr; ring|].
    match goal with |- traceless (fun i => ?A * st_h x i / ?B) => apply (traceless_ext (fun i => (A / B) * st_h x i + 0 * st_h x i)); [intros i _; unfold Rdiv; ring|apply traceless_lin; assumption] end.
Qed.
Lemma w_rates_traceless w s a T i k ps : (forall j, (j < w_nX w)%nat -> traceless (wX a j)) -> (i < w_nX w)%nat -> traceless (w_g w s a) /\
  ((exists c g, w_X w i = FAKin c g) \/ (exists p, w_X w i = WalkerKin p) -> k = kv_p \/ k = kv_t -> forall ar,
   traceless (wX (pv (w_rates w ar ps k) s a T) i)).
Proof.
  intros Ht Hi.
  assert (Hg : traceless (w_g w s a)).
  { apply (traceless_ext (dirv (w_d w s a))); [intros; symmetry; apply w_g_dirv; assumption|]. apply traceless_dirv, wd_traceless, Ht. }
  split; [exact Hg|]. intros HK Hk ar.
  apply (traceless_ext (kr (k (w_X w i)) (w_state w s a T (wX a i)))).
  { intros l Hl. cbn [pv w_rates]. symmetry. apply wX_whist, Hl. }
  destruct HK as [(c & g & ->)|(p & ->)]; destruct Hk as [->| ->].
  - apply fa_traceless; [apply Ht, Hi|exact Hg].
  - cbn. unfold traceless. rewrite wtr. ring.
  - apply wk_traceless; [apply Ht, Hi|exact Hg].
  - apply wk_traceless; [apply Ht, Hi|exact Hg].
Qed.

(** ** Bounded variables *)
(** a scalar pushed back into [lo, hi] *)
Lemma scal_step lo hi h h' p q rp rt r e : 0 <= p -> 0 <= q -> h' = h + p * rp + q * rt + r -> Rabs r <= e ->
  (hi < h' -> rp <= 0 /\ rt <= 0) -> (h' < lo -> 0 <= rp /\ 0 <= rt) -> forall E, 0 <= E -> lo - E <= h <= hi + E -> lo - (E + e) <= h' <= hi + (E + e).
Proof.
  intros Hp Hq Eh Hr Hu Hl E HE Hb. assert (Hr2 := Rabs_def2 r (e + 1) ltac:(lra)). assert (- e <= r <= e) by (split; [destruct (Rcase_abs r); [rewrite Rabs_left in Hr by assumption; lra|generalize (Rabs_pos r); lra]|apply Rle_trans with (Rabs r); [apply Rle_abs|exact Hr]]).
  assert (0 <= e) by (generalize (Rabs_pos r); lra). split.
  - destruct (Rlt_dec h' lo) as [L|L]; [|lra]. destruct (Hl L) as [L1 L2]. assert (0 <= p * rp) by (apply Rmult_le_pos; assumption). assert (0 <= q * rt) by (apply Rmult_le_pos; assumption). lra.
  - destruct (Rlt_dec hi h') as [L|L]; [|lra]. destruct (Hu L) as [L1 L2].
    assert (0 <= p * - rp) by (apply Rmult_le_pos; lra). assert (0 <= q * - rt) by (apply Rmult_le_pos; lra). lra.
Qed.
Lemma run_scal w (Ts : R -> Prop) tol j (lo hi : R) : (j < 3)%nat -> 0 <= tol ->
  (forall T s a, Ts T -> (hi < a j -> pv (vf_h (WalkerFlow w)) s a T j <= 0 /\ pv (vf_ht (WalkerFlow w)) s a T j <= 0) /\
                 (a j < lo -> 0 <= pv (vf_h (WalkerFlow w)) s a T j /\ 0 <= pv (vf_ht (WalkerFlow w)) s a T j)) ->
  forall N a a', walker_run w Ts tol N a a' -> lo <= a j <= hi -> lo - INR N * tol <= a' j <= hi + INR N * tol.
Proof.
  intros Hj Ht HR N a a' H. induction H as [a|N a a1 a2 T s p q r H1 IH HT (Hp & Hq & HS) Hr]; intros Hb.
  - cbn [INR]. lra.
  - specialize (IH Hb). rewrite S_INR. replace ((INR N + 1) * tol) with (INR N * tol + tol) by ring.
    assert (Hn : (j < vf_n (WalkerFlow w))%nat) by (cbn [vf_n WalkerFlow]; lia).
    destruct (HR T s a2 HT) as [HU HL].
    apply (scal_step lo hi (a1 j) (a2 j) p q _ _ (r j) tol Hp Hq (HS j Hn)); try assumption.
    + apply Rle_trans with (2 := Hr). apply comp_le_norm, Hn.
    + apply Rmult_le_pos; [apply pos_INR|exact Ht].
Qed.
Lemma drag_run w (Ts : R -> Prop) tol d0 d1 d2 Dxi D0 S scale Dm : w_D w = WalkerDrag d0 d1 d2 Dxi D0 S scale -> 0 <= tol ->
  (forall T, Ts T -> 0 <= d0 T /\ 0 <= d1 T /\ 0 < Dxi T <= Dm /\ 0 <= scale T /\ forall a, 0 <= so_phi S a T) ->
  forall N a a', walker_run w Ts tol N a a' -> D0 <= a 2%nat <= D0 + Dm -> D0 - INR N * tol <= a' 2%nat <= D0 + Dm + INR N * tol.
Proof.
  intros HD Ht HP. apply (run_scal w Ts tol 2 D0 (D0 + Dm)); [lia|exact Ht|].
  intros T s a HT. destruct (HP T HT) as (H0 & H1 & (Hx & Hm) & Hs & Hphi). cbn [vf_h vf_ht WalkerFlow w_rates pv whist]. rewrite HD.
  cbn [dv_var sv_p sv_t WalkerDrag sr st_h st_T st_a w_state]. split; intros L.
  - split.
    + assert (1 <= (a 2%nat - D0) / Dxi T) by (apply Rmult_le_reg_r with (Dxi T); [exact Hx|]; unfold Rdiv; rewrite Rmult_assoc, Rinv_l; lra).
      assert (0 <= d0 T * ((a 2%nat - D0) / Dxi T - 1)) by (apply Rmult_le_pos; lra). lra.
    + destruct (Rle_dec _ 0); [lra|].
      assert (0 <= scale T * so_phi S (a 0%nat) T * d1 T * cpow (a 2%nat - D0) (d2 T)); [|lra].
      apply Rmult_le_pos; [apply Rmult_le_pos; [apply Rmult_le_pos; [exact Hs|apply Hphi]|exact H1]|]. rewrite cpow_pos by lra. left. apply exp_pos.
  - split.
    + assert ((a 2%nat - D0) / Dxi T <= 0).
      { apply Ropp_le_cancel. rewrite Ropp_0. replace (- ((a 2%nat - D0) / Dxi T)) with ((D0 - a 2%nat) * / Dxi T) by (unfold Rdiv; ring).
        apply Rmult_le_pos; [lra|left; apply Rinv_0_lt_compat, Hx]. }
      apply Rmult_le_pos; lra.
    + destruct (Rle_dec _ 0); [lra|lra].
Qed.
Lemma iso_run w (Ts : R -> Prop) tol r0 Rinf R0 r1 r2 lo hi : w_R w = WalkerIso r0 Rinf R0 r1 r2 -> 0 <= tol ->
  (forall T, Ts T -> 0 <= r0 T /\ 0 <= r1 T /\ lo <= Rinf T <= hi /\ lo <= R0 T <= hi) ->
  forall N a a', walker_run w Ts tol N a a' -> lo <= a 1%nat <= hi -> lo - INR N * tol <= a' 1%nat <= hi + INR N * tol.
Proof.
  intros HD Ht HP. apply (run_scal w Ts tol 1 lo hi); [lia|exact Ht|].
  intros T s a HT. destruct (HP T HT) as (H0 & H1 & Hi & Hr). cbn [vf_h vf_ht WalkerFlow w_rates pv whist]. rewrite HD.
  cbn [sv_p sv_t WalkerIso sr st_h st_T st_a w_state]. cbv zeta.
  assert (Hc : 0 <= cpow (Rabs (R0 T - a 1%nat)) (r2 T - 1)).
  { unfold cpow. destruct (Rlt_dec 0 _); [left; apply exp_pos|]. destruct (Req_EM_T _ 0); lra. }
  split; intros L.
  - split.
    + assert (0 <= r0 T * (a 1%nat - Rinf T)) by (apply Rmult_le_pos; lra). lra.
    + assert (0 <= r1 T * (a 1%nat - R0 T) * cpow (Rabs (R0 T - a 1%nat)) (r2 T - 1)) by (apply Rmult_le_pos; [apply Rmult_le_pos; lra|exact Hc]). lra.
  - split; [apply Rmult_le_pos; lra|apply Rmult_le_pos; [apply Rmult_le_pos; lra|exact Hc]].
Qed.
Lemma alpha_run w (Ts : R -> Prop) tol : 0 <= tol -> forall N a a', walker_run w Ts tol N a a' -> a 0%nat - INR N * tol <= a' 0%nat.
Proof.
  intros Ht N a a' H. induction H as [a|N a a1 a2 T s p q r H1 IH HT (Hp & Hq & HS) Hr].
  - cbn [INR]. lra.
  - rewrite S_INR. assert (Hn : (0 < vf_n (WalkerFlow w))%nat) by (cbn [vf_n WalkerFlow]; lia).
    rewrite (HS 0%nat Hn). cbn [vf_h vf_ht WalkerFlow w_rates pv whist]. assert (Hc := comp_le_norm _ r 0%nat Hn).
    assert (- Rabs (r 0%nat) <= r 0%nat) by (generalize (Rle_abs (- r 0%nat)); rewrite Rabs_Ropp; lra). lra.
Qed.
(** backstresses *)
Lemma kin_step M h h' rp rt r p q k : 0 <= p -> 0 <= q -> 0 <= k ->
  (forall i, (i < 6)%nat -> h' i = h i + p * rp i + q * rt i + r i) ->
  dot 6 rp h' <= k * (M - norm2 6 h') * norm2 6 h' -> dot 6 rt h' <= 0 ->
  norm2 6 h' <= Rmax M (norm2 6 h + norm2 6 r).
Proof.
  intros Hp Hq Hk Eh H1 H2. assert (N' := norm2_nonneg 6 h'). assert (Nh := norm2_nonneg 6 h). assert (Nr := norm2_nonneg 6 r).
  destruct (Rle_dec (norm2 6 h') M) as [L|L]; [apply Rle_trans with (1 := L), Rmax_l|]. apply Rle_trans with (2 := Rmax_r _ _).
  destruct (Req_EM_T (norm2 6 h') 0) as [Z|Z]; [lra|].
  assert (E : norm2 6 h' * norm2 6 h' = dot 6 h h' + p * dot 6 rp h' + q * dot 6 rt h' + dot 6 r h').
  { rewrite norm2_sqr. rewrite (dot_ext_l 6 h' (fun i => h i + p * rp i + q * rt i + r i)) at 1 by exact Eh.
    rewrite !dot_plus, !dot_scal. reflexivity. }
  assert (C1 := cauchy 6 h h'). assert (C2 := cauchy 6 r h').
  assert (P1 : p * dot 6 rp h' <= 0).
  { assert (0 <= k * (norm2 6 h' - M) * norm2 6 h') by (apply Rmult_le_pos; [apply Rmult_le_pos; lra|lra]).
    assert (0 <= p * - dot 6 rp h') by (apply Rmult_le_pos; lra). lra. }
  assert (P2 : q * dot 6 rt h' <= 0) by (assert (0 <= q * - dot 6 rt h') by (apply Rmult_le_pos; lra); lra).
  apply Rmult_le_reg_r with (norm2 6 h'); [lra|]. lra.
Qed.
Lemma kin_run w (Ts : R -> Prop) tol i M : (i < w_nX w)%nat -> 0 <= tol -> kin_bounded Ts M (w_X w i) ->
  forall N a a', walker_run w Ts tol N a a' -> norm2 6 (wX a i) <= M -> norm2 6 (wX a' i) <= M + INR N * tol.
Proof.
  intros Hi Ht HK N a a' H. induction H as [a|N a a1 a2 T s p q r H1 IH HT (Hp & Hq & HS) Hr]; intros Hb.
  - cbn [INR]. lra.
  - specialize (IH Hb). rewrite S_INR.
    destruct (HK (w_state w s a2 T (wX a2 i)) HT (w_g_le w s a2)) as [(k & Hk & H2) H3]. cbn [st_h w_state] in H2, H3.
    assert (Q : norm2 6 (wX a2 i) <= Rmax M (norm2 6 (wX a1 i) + norm2 6 (wX r i))).
    { apply (kin_step M (wX a1 i) (wX a2 i) (kr (kv_p (w_X w i)) (w_state w s a2 T (wX a2 i))) (kr (kv_t (w_X w i)) (w_state w s a2 T (wX a2 i))) (wX r i) p q k); try assumption.
      intros l Hl. unfold wX at 1. rewrite (HS (3 + 6 * i + l)%nat) by (cbn [vf_n WalkerFlow]; lia).
      cbn [vf_h vf_ht WalkerFlow w_rates pv]. rewrite !whist_X by exact Hl. reflexivity. }
    assert (B : norm2 6 (wX r i) <= tol) by (apply Rle_trans with (2 := Hr); apply block_le_norm, Hi).
    assert (0 <= INR N * tol) by (apply Rmult_le_pos; [apply pos_INR|exact Ht]).
    apply Rle_trans with (1 := Q). apply Rmax_lub; [lra|]. lra.
Qed.
Lemma g_h_le g h : dot 6 g g <= 3 / 2 -> 2 / 3 * dot 6 g h <= sqrt (2 / 3) * norm2 6 h.
Proof.
  intros Hg. assert (C := cauchy 6 g h). assert (Nh := norm2_nonneg 6 h).
  assert (G : norm2 6 g <= sqrt (3 / 2)) by (unfold norm2; apply sqrt_le_1_alt, Hg).
  assert (E : 2 / 3 * sqrt (3 / 2) = sqrt (2 / 3)).
  { rewrite <- (sqrt_square (2 / 3)) at 1 by lra. rewrite <- sqrt_mult_alt by lra. f_equal. field. }
  rewrite <- E. apply Rle_trans with (2 / 3 * (norm2 6 g * norm2 6 h)); [lra|]. rewrite Rmult_assoc. apply Rmult_le_compat_l; [lra|]. apply Rmult_le_compat_r; assumption.
Qed.
Lemma fa_bounded (Ts : R -> Prop) c g M : (forall T, Ts T -> 0 <= c T /\ 0 <= g T /\ sqrt (2 / 3) * c T <= M * g T) -> kin_bounded Ts M (FAKin c g).
Proof.
  intros H x HT Hg. destruct (H _ HT) as (Hc & Hgg & HM). assert (Nh := norm2_nonneg 6 (st_h x)). split.
  - exists (g (st_T x)). split; [exact Hgg|]. cbn [kv_p FAKin kr].
    rewrite (dot_ext_l 6 _ (fun i => (2 / 3 * c (st_T x)) * st_g x i + (- g (st_T x)) * st_h x i)) by (intros; ring). rewrite dot_plus, !dot_scal, <- norm2_sqr.
    assert (Q := g_h_le (st_g x) (st_h x) Hg). assert (Q2 := Rmult_le_compat_l _ _ _ Hc Q). assert (Q3 := Rmult_le_compat_r _ _ _ Nh HM). lra.
  - cbn [kv_t FAKin zero_krate kr]. rewrite dot_0l. lra.
Qed.
Lemma wk_L_bounds p x : let T := st_T x in 0 < k_l p T -> 0 <= k_l1 p T <= 1 -> 0 <= k_l0 p T ->
  0 < k_L p x <= Rmax (k_l p T) (k_l1 p T + 1).
Proof.
  cbv zeta. intros Hl Hl1 Hl0. unfold k_L. cbv zeta. set (T := st_T x) in *. destruct (Rle_dec (st_a x) 0) as [L|L].
  - split; [lra|apply Rmax_r].
  - assert (E1 : 0 < exp (- k_l0 p T * st_a x)) by apply exp_pos.
    assert (E2 : exp (- k_l0 p T * st_a x) <= 1).
    { rewrite <- exp_0. assert (Z : - k_l0 p T * st_a x <= 0) by (assert (0 <= k_l0 p T * st_a x) by (apply Rmult_le_pos; lra); lra).
      destruct Z as [Z|Z]; [left; apply exp_increasing, Z|rewrite Z; lra]. }
    assert (B1 : 0 < k_l1 p T + (1 - k_l1 p T) * exp (- k_l0 p T * st_a x)).
    { assert (0 <= (1 - k_l1 p T) * exp (- k_l0 p T * st_a x)) by (apply Rmult_le_pos; lra).
      destruct (Req_EM_T (k_l1 p T) 0) as [Z|Z]; [rewrite Z; lra|lra]. }
    assert (B2 : k_l1 p T + (1 - k_l1 p T) * exp (- k_l0 p T * st_a x) <= 1).
    { assert (0 <= (1 - k_l1 p T) * (1 - exp (- k_l0 p T * st_a x))) by (apply Rmult_le_pos; lra). lra. }
    split; [apply Rmult_lt_0_compat; assumption|]. apply Rle_trans with (2 := Rmax_l _ _).
    rewrite <- (Rmult_1_r (k_l p T)) at 2. apply Rmult_le_compat_l; lra.
Qed.
Lemma wkin_bounded (Ts : R -> Prop) p M :
  (forall T, Ts T -> 0 <= k_c0 p T /\ 0 <= k_c1 p T /\ 0 <= k_b0 p T < 1 /\ 0 < k_l p T /\ 0 <= k_l1 p T <= 1 /\ 0 <= k_l0 p T /\
     0 <= k_x0 p T /\ 0 <= k_scale p T /\ (forall a, 0 <= so_phi (k_soft p) a T) /\
     sqrt (2 / 3) * Rmax (k_l p T) (k_l1 p T + 1) <= M * (1 - k_b0 p T)) ->
  kin_bounded Ts M (WalkerKin p).
Proof.
  intros H x HT Hg. set (T := st_T x) in *. destruct (H T HT) as (Hc0 & Hc1 & Hb0 & Hl & Hl1 & Hl0 & Hx0 & Hsc & Hphi & HM).
  assert (Nh := norm2_nonneg 6 (st_h x)). destruct (wk_L_bounds p x Hl Hl1 Hl0) as [HL HLm]. fold T in HLm.
  assert (Hc : 0 <= k_c p x).
  { unfold k_c. cbv zeta. fold T. destruct (Rle_dec _ 0); [exact Hc0|]. assert (0 <= k_c1 p T * cpow (st_ad x) (1 / k_c2 p T)); [|lra].
    apply Rmult_le_pos; [exact Hc1|]. rewrite cpow_pos by lra. left. apply exp_pos. }
  split.
  - exists (k_c p x * (1 - k_b0 p T) / k_L p x).
    split; [apply Rmult_le_pos; [apply Rmult_le_pos; lra|left; apply Rinv_0_lt_compat, HL]|].
    cbn [kv_p WalkerKin kr].
    set (nh := dot 6 (dirv (k_d x)) (st_h x)).
    rewrite (dot_ext_l 6 _ (fun i => (k_c p x * (2 / 3)) * st_g x i + ((- k_c p x / k_L p x * (1 - k_b0 p T)) * st_h x i + (- k_c p x / k_L p x * (2 / 3 * k_b0 p T * nh)) * dirv (k_d x) i))).
    2:{ intros i Hi. rewrite k_b_val by exact Hi. fold T nh. unfold Rdiv. ring. }
    rewrite !dot_plus, !dot_scal, <- norm2_sqr. fold nh.
    assert (Q := g_h_le (st_g x) (st_h x) Hg). assert (Q2 := Rmult_le_compat_l _ _ _ Hc Q).
    assert (IL : 0 < / k_L p x) by (apply Rinv_0_lt_compat, HL).
    assert (S1 : 0 <= k_c p x * / k_L p x * (2 / 3 * k_b0 p T * (nh * nh))).
    { apply Rmult_le_pos; [apply Rmult_le_pos; lra|]. apply Rmult_le_pos; [lra|apply Rle_0_sqr]. }
    assert (S2 : sqrt (2 / 3) <= M * (1 - k_b0 p T) * / k_L p x).
    { apply Rmult_le_reg_r with (k_L p x); [exact HL|]. rewrite Rmult_assoc, Rinv_l, Rmult_1_r by lra.
      apply Rle_trans with (2 := HM). apply Rmult_le_compat_l; [apply sqrt_pos|exact HLm]. }
    assert (S3 := Rmult_le_compat_l _ _ _ (Rmult_le_pos _ _ Hc Nh) S2). unfold Rdiv in *. lra.
  - cbn [kv_t WalkerKin kr]. cbv zeta. fold T. unfold k_off. destruct (Req_EM_T _ 0) as [Z|Z]; [rewrite dot_0l; lra|].
    destruct (Rle_dec (st_D x) 0) as [Z2|Z2]; [rewrite dot_0l; lra|]. destruct s32 as [Hq _].
    assert (Hp : 0 < sym_norm (st_h x)) by (rewrite wsn in *; lra).
    rewrite (dot_ext_l 6 _ (fun i => (- (k_scale p T * k_x0 p T * so_phi (k_soft p) (st_a x) T * cpow (k_arg x) (k_x1 p T) * / (sym_norm (st_h x) * sqrt (3 / 2)))) * st_h x i))
      by (intros; unfold Rdiv; ring).
    rewrite dot_scal, <- norm2_sqr.
    assert (0 <= k_scale p T * k_x0 p T * so_phi (k_soft p) (st_a x) T * cpow (k_arg x) (k_x1 p T) * / (sym_norm (st_h x) * sqrt (3 / 2)) * (norm2 6 (st_h x) * norm2 6 (st_h x))); [|lra].
    apply Rmult_le_pos; [|apply Rmult_le_pos; lra].
    apply Rmult_le_pos; [apply Rmult_le_pos; [apply Rmult_le_pos; [apply Rmult_le_pos; assumption|apply Hphi]|]|].
    + unfold cpow. destruct (Rlt_dec 0 (k_arg x)); [left; apply exp_pos|]. destruct (Req_EM_T _ 0); lra.
    + left. apply Rinv_0_lt_compat, Rmult_lt_0_compat; assumption.
Qed.

(** ** Accepted updates are such steps *)
Lemma tvp_walker_step lsolve inv prm Ce w limit skip next past st st' A E : (1 <= miter prm)%Z ->
  update_step lsolve inv prm (GenIntegrator Ce (TVP Ce (WalkerFlow w) limit) skip) next past st = Some (st', A, E) ->
  eps <= ld_t next - ld_t past -> 0 < w_pre w (ps_h st') (ld_T next) ->
  let M := GenIntegrator Ce (TVP Ce (WalkerFlow w) limit) skip in
  exists r, within_tolerance prm (sb_np M) r (gi_R (TVP Ce (WalkerFlow w) limit) next past st (sb_init M next past st)) /\
    walker_step w (ld_T next) (ps_s st') (ps_h st) (ps_h st')
      ((ld_t next - ld_t past) * w_y w (ps_s st') (ps_h st') (ld_T next)) (ld_t next - ld_t past) (fun j => r (6 + j)%nat).
Proof.
  intros Hm HS Hdt Hp M. pose proof eps_pos as He.
  destruct (gi_step_eqs lsolve inv prm Ce _ skip next past st st' A E Hm HS Hdt) as (_ & r & Hr & _ & Hh).
  exists r. split; [exact Hr|]. split; [|split].
  - apply Rmult_le_pos; [lra|]. apply w_y_facts, Hp.
  - lra.
  - intros j Hj. rewrite (Hh j Hj). cbn [gf_a TVP vf_y vf_hT WalkerFlow zero_part pv]. ring.
Qed.
Lemma wk_walker_step lsolve inv prm Ce w lam eps0 skip next past st st' A E : (1 <= miter prm)%Z ->
  update_step lsolve inv prm (GenIntegrator Ce (WKSwitch Ce (WalkerFlow w) lam eps0) skip) next past st = Some (st', A, E) ->
  eps <= ld_t next - ld_t past -> 0 < w_pre w (ps_h st') (ld_T next) -> 0 < eps0 -> 0 <= lam (ld_T next) <= 1 ->
  let M := GenIntegrator Ce (WKSwitch Ce (WalkerFlow w) lam eps0) skip in
  let edot := fun i => (ld_e next i - ld_e past i) / (ld_t next - ld_t past) in
  let q := (ld_t next - ld_t past) * wk_kappa lam eps0 edot (ld_T next) in
  exists r, within_tolerance prm (sb_np M) r (gi_R (WKSwitch Ce (WalkerFlow w) lam eps0) next past st (sb_init M next past st)) /\
    walker_step w (ld_T next) (ps_s st') (ps_h st) (ps_h st') (q * w_y w (ps_s st') (ps_h st') (ld_T next)) q (fun j => r (6 + j)%nat).
Proof.
  intros Hm HS Hdt Hp He0 HL M edot q. pose proof eps_pos as He.
  destruct (gi_step_eqs lsolve inv prm Ce _ skip next past st st' A E Hm HS Hdt) as (_ & r & Hr & _ & Hh).
  assert (Hq : 0 <= q) by (apply Rmult_le_pos; [lra|apply wk_kappa_nonneg; assumption]).
  exists r. split; [exact Hr|]. split; [|split].
  - apply Rmult_le_pos; [exact Hq|]. apply w_y_facts, Hp.
  - exact Hq.
  - intros j Hj. rewrite (Hh j Hj). cbn [gf_a WKSwitch vf_y vf_hT WalkerFlow zero_part pv]. unfold q. fold edot. ring.
Qed.

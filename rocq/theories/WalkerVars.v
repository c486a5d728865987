From Verif Require Import Base.
From Verif Require Import Diff.
From Verif Require Import NemlMathModel NemlMathSpec NemlMathProofs SurfModel SurfSpec SurfProofs HardModel HardProofs PlastModel PlastSpec PlastProofs RiProofs ViscoModel ViscoSpec ViscoProofs TensorModel TensorSpec TensorProofs WalkerModel WalkerSpec WalkerProofs WalkerDeriv.

(** ** Softening *)
Lemma nosoft_exact : soft_exact (fun _ _ => True) NoSoftening.
Proof. intros a T _. cbn. apply D_const. Qed.
Lemma ainc_pos : 0 < ainc. Proof. unfold ainc. lra. Qed.
Lemma wsoft_exact phi0 phi1 : soft_exact (fun a T => 0 < a /\ a <> ainc) (WalkerSoftening phi0 phi1).
Proof.
  intros a T [Ha Hn]. cbn [so_phi so_dphi WalkerSoftening]. unfold ws_dphi. destruct (Rle_dec a 0) as [|_]; [lra|].
  assert (Hp := ainc_pos).
  destruct (Rlt_dec a ainc) as [L|L].
  - apply (D_loc (fun x => phi0 T * cpow ainc (phi1 T) / ainc * x + 1)).
    + generalize (filter_and _ _ (loc_gt (fun x => x) a _ 0 (D_id a) Ha) (loc_lt (fun x => x) a _ ainc (D_id a) L)). apply filter_imp.
      intros u [U1 U2]. unfold ws_phi. destruct (Rle_dec u 0) as [|_]; [lra|]. destruct (Rlt_dec u ainc); [reflexivity|lra].
    + eapply D_eq; [apply D_plus; [apply D_mult; [apply D_const|apply D_id]|apply D_const]|cbv beta; ring].
  - apply (D_loc (fun x => 1 + phi0 T * cpow x (phi1 T))).
    + assert (L2 : ainc < a) by lra. generalize (loc_gt (fun x => x) a _ ainc (D_id a) L2). apply filter_imp.
      intros u U. unfold ws_phi. destruct (Rle_dec u 0) as [|_]; [lra|]. destruct (Rlt_dec u ainc); [lra|reflexivity].
    + eapply D_eq; [apply D_plus; [apply D_const|apply D_mult; [apply D_const|apply (D_cpow (fun x => x) (phi1 T) a _ (D_id a) Ha)]]|cbv beta; ring].
Qed.
(** no jump at the end of the linear piece, none at zero, and never below one *)
Lemma wsoft_value phi0 phi1 T : (forall a, a <= 0 -> ws_phi phi0 phi1 a T = 1) /\
  phi0 T * cpow ainc (phi1 T) / ainc * ainc + 1 = ws_phi phi0 phi1 ainc T /\
  (0 <= phi0 T -> forall a, 1 <= ws_phi phi0 phi1 a T).
Proof.
  assert (Hp := ainc_pos). split; [|split].
  - intros a Ha. unfold ws_phi. destruct (Rle_dec a 0); [reflexivity|contradiction].
  - unfold ws_phi. destruct (Rle_dec ainc 0); [lra|]. destruct (Rlt_dec ainc ainc); [lra|]. field. lra.
  - intros H a. unfold ws_phi. destruct (Rle_dec a 0); [lra|].
    assert (Hc : 0 <= cpow ainc (phi1 T)) by (rewrite cpow_pos by lra; left; apply exp_pos).
    destruct (Rlt_dec a ainc).
    + assert (0 <= phi0 T * cpow ainc (phi1 T) / ainc * a); [|lra]. apply Rmult_le_pos; [|lra]. apply Rmult_le_pos; [apply Rmult_le_pos; assumption|left; apply Rinv_0_lt_compat; lra].
    + assert (0 <= phi0 T * cpow a (phi1 T)); [|lra]. apply Rmult_le_pos; [lra|]. rewrite cpow_pos by lra. left. apply exp_pos.
Qed.
Lemma wsoft_negative phi0 phi1 T a : a < 0 -> phi0 T <> 0 ->
  is_derive (fun x => ws_phi phi0 phi1 x T) a 0 /\ ws_dphi phi0 phi1 a T <> 0.
Proof.
  intros Ha H. split.
  - apply (D_loc (fun _ => 1)); [|apply D_const]. generalize (loc_lt (fun x => x) a _ 0 (D_id a) Ha). apply filter_imp. intros u U.
    unfold ws_phi. destruct (Rle_dec u 0); [reflexivity|lra].
  - unfold ws_dphi. destruct (Rle_dec a 0); [|lra]. assert (Hp := ainc_pos). unfold Rdiv. apply Rmult_integral_contrapositive_currified; [|apply Rinv_neq_0_compat; lra].
    apply Rmult_integral_contrapositive_currified; [exact H|]. rewrite cpow_pos by lra. apply Rgt_not_eq, exp_pos.
Qed.

(** ** Thermal scaling *)
Lemma arrhenius_facts Q Rgas Tref T : arrhenius Q Rgas Tref Tref = 1 /\ 0 < arrhenius Q Rgas Tref T.
Proof.
  unfold arrhenius, arr. split; [field; apply Rgt_not_eq, exp_pos|]. apply Rdiv_lt_0_compat; apply exp_pos.
Qed.
(** with constant activation energy the scaling grows with temperature *)
Lemma arrhenius_monotone q Rgas Tref T1 T2 : 0 <= q -> 0 < Rgas -> 0 < T1 -> T1 <= T2 ->
  arrhenius (fun _ => q) Rgas Tref T1 <= arrhenius (fun _ => q) Rgas Tref T2.
Proof.
  intros Hq HR H1 H12. unfold arrhenius. apply Rmult_le_compat_r; [left; apply Rinv_0_lt_compat, exp_pos|]. unfold arr.
  assert (E : - q / (Rgas * T1) <= - q / (Rgas * T2)).
  { unfold Rdiv. rewrite !Ropp_mult_distr_l_reverse. apply Ropp_le_contravar. apply Rmult_le_compat_l; [exact Hq|]. apply Rinv_le_contravar; nra. }
  destruct E as [E|E]; [left; apply exp_increasing, E|rewrite E; lra].
Qed.

(** ** Scalar variables *)
Lemma dot_0l n v : dot n (fun _ => 0) v = 0.
Proof. unfold dot. rewrite (rsum_ext n _ (fun _ => 0)), rsum_0; [reflexivity|intros; ring]. Qed.
Lemma mv_0l n v i : mv n (fun _ _ => 0) v i = 0.
Proof. unfold mv. rewrite (rsum_ext n _ (fun _ => 0)), rsum_0; [reflexivity|intros; ring]. Qed.
Lemma zero_srate_exact P : srate_exact P zero_srate.
Proof. intros c t v _ _ _. cbn [zero_srate sr sr_h sr_a sr_ad sr_D sr_s sr_g]. eapply D_eq; [apply D_const|]. rewrite !dot_0l. ring. Qed.
Lemma zero_krate_exact P : krate_exact P zero_krate.
Proof. intros c t v _ _ _ i Hi. cbn [zero_krate kr kr_h kr_a kr_ad kr_D kr_s kr_g]. eapply D_eq; [apply D_const|]. rewrite !mv_0l. ring. Qed.
Lemma wiso_exact r0 Rinf R0 r1 r2 :
  srate_exact (fun x => st_h x <> R0 (st_T x)) (sv_p (WalkerIso r0 Rinf R0 r1 r2)) /\
  srate_exact (fun x => st_h x <> R0 (st_T x)) (sv_t (WalkerIso r0 Rinf R0 r1 r2)).
Proof.
  split; intros c t v (Hh & _ & _ & _ & _ & _ & HT) _ HP; cbn [sv_p sv_t WalkerIso sr sr_h sr_a sr_ad sr_D sr_s sr_g]; set (T := st_T (c t)) in *.
  - apply (D_ext (fun u => r0 T * (Rinf T - st_h (c u)))). { intros u. rewrite (HT u). reflexivity. }
    eapply D_eq; [apply D_mult; [apply D_const|apply D_minus; [apply D_const|exact Hh]]|]. cbv beta. rewrite !dot_0l. ring.
  - assert (Dd : is_derive (fun u => R0 T - st_h (c u)) t (0 - st_h v)) by (apply D_minus; [apply D_const|exact Hh]).
    apply (D_ext (fun u => r1 T * (R0 T - st_h (c u)) * cpow (Rabs (R0 T - st_h (c u))) (r2 T - 1))). { intros u. rewrite (HT u). reflexivity. }
    destruct (Rlt_dec 0 (R0 T - st_h (c t))) as [L|L].
    + eapply D_eq; [apply D_mult; [apply D_mult; [apply D_const|exact Dd]|apply D_cpow; [apply (D_Rabs_pos _ t _ Dd L)|cbv beta; rewrite Rabs_pos_eq; lra]]|].
      cbv beta. rewrite !dot_0l. rewrite (Rabs_pos_eq (R0 T - st_h (c t))) by lra.
      replace (cpow (R0 T - st_h (c t)) (r2 T - 1)) with ((R0 T - st_h (c t)) * cpow (R0 T - st_h (c t)) (r2 T - 1 - 1)).
      * ring.
      * rewrite !cpow_pos by exact L. rewrite <- (Rpower_1 (R0 T - st_h (c t)) L) at 1. rewrite <- Rpower_plus. f_equal. ring.
    + assert (L' : R0 T - st_h (c t) < 0) by lra. set (d := R0 T - st_h (c t)) in *.
      eapply D_eq; [apply D_mult; [apply D_mult; [apply D_const|exact Dd]|apply D_cpow; [apply (D_Rabs_neg _ t _ Dd L')|cbv beta; apply Rabs_pos_lt; fold d; lra]]|].
      cbv beta. rewrite !dot_0l. fold d. rewrite (Rabs_left d) by lra.
      replace (cpow (- d) (r2 T - 1)) with (- d * cpow (- d) (r2 T - 1 - 1)).
      * ring.
      * rewrite !cpow_pos by lra. rewrite <- (Rpower_1 (- d)) at 1 by lra. rewrite <- Rpower_plus. f_equal. ring.
Qed.
Lemma wdrag_exact d0 d1 d2 Dxi D0 S scale Pa : soft_exact Pa S ->
  let P := fun x => D0 < st_h x /\ Dxi (st_T x) <> 0 /\ Pa (st_a x) (st_T x) in
  srate_exact P (sv_p (dv_var (WalkerDrag d0 d1 d2 Dxi D0 S scale))) /\ srate_exact P (sv_t (dv_var (WalkerDrag d0 d1 d2 Dxi D0 S scale))).
Proof.
  intros HS. cbv zeta.
  split; intros c t v (Hh & Ha & _ & _ & _ & _ & HT) _ (HP & Hx & HPa); cbn [dv_var sv_p sv_t WalkerDrag sr sr_h sr_a sr_ad sr_D sr_s sr_g]; set (T := st_T (c t)) in *.
  - apply (D_ext (fun u => d0 T * (1 - (st_h (c u) - D0) / Dxi T))). { intros u. rewrite (HT u). reflexivity. }
    eapply D_eq; [apply D_mult; [apply D_const|apply D_minus; [apply D_const|apply (D_div (fun u => st_h (c u) - D0) (fun _ => Dxi T)); [apply D_minus; [exact Hh|apply D_const]|apply D_const|exact Hx]]]|].
    cbv beta. rewrite !dot_0l. field. exact Hx.
  - assert (Dd : is_derive (fun u => st_h (c u) - D0) t (st_h v - 0)) by (apply D_minus; [exact Hh|apply D_const]).
    assert (Hp : 0 < st_h (c t) - D0) by lra.
    apply (D_loc (fun u => - scale T * so_phi S (st_a (c u)) T * d1 T * cpow (st_h (c u) - D0) (d2 T))).
    + generalize (loc_gt _ t _ 0 Dd Hp). apply filter_imp. intros u U. rewrite (HT u). fold T. destruct (Rle_dec _ 0); [lra|reflexivity].
    + eapply D_eq.
      { apply D_mult; [apply D_mult; [apply D_mult; [apply D_const|apply (D_comp (fun x => so_phi S x T) (fun u => st_a (c u))); [exact Ha|apply HS, HPa]]|apply D_const]|apply (D_cpow _ (d2 T) t _ Dd Hp)]. }
      cbv beta. rewrite !dot_0l. destruct (Rle_dec _ 0); [lra|]. ring.
Qed.
(** below its initial value the drag stress is not recovered, while the reported derivative is one *)
Lemma wdrag_below d0 d1 d2 Dxi D0 S scale : ~ srate_exact (fun x => st_h x < D0) (sv_t (dv_var (WalkerDrag d0 d1 d2 Dxi D0 S scale))).
Proof.
  intros H. specialize (H (fun u => mkSt (D0 - 1 + u) 0 1 0 (fun _ => 0) (fun _ => 0) 0) 0 (mkSt 1 0 0 0 (fun _ => 0) (fun _ => 0) 0)).
  cbn [st_h st_a st_ad st_D st_s st_g st_T] in H.
  assert (E : is_derive (fun u => sr (sv_t (dv_var (WalkerDrag d0 d1 d2 Dxi D0 S scale))) (mkSt (D0 - 1 + u) 0 1 0 (fun _ => 0) (fun _ => 0) 0)) 0 1).
  { assert (H1 : spath (fun u => mkSt (D0 - 1 + u) 0 1 0 (fun _ => 0) (fun _ => 0) 0) 0 (mkSt 1 0 0 0 (fun _ => 0) (fun _ => 0) 0)).
    { unfold spath. cbn [st_h st_a st_ad st_D st_s st_g st_T]. split; [eapply D_eq; [apply D_plus; [apply D_const|apply D_id]|ring]|]. do 3 (split; [apply D_const|]). do 2 (split; [intros i Hi; apply D_const|]). reflexivity. }
    assert (H2 : settled (fun u => mkSt (D0 - 1 + u) 0 1 0 (fun _ : nat => 0) (fun _ => 0) 0) 0) by (left; cbn; lra).
    eapply D_eq; [apply (H H1 H2 ltac:(lra))|].
    cbn [dv_var sv_t WalkerDrag sr sr_h sr_a sr_ad sr_D sr_s sr_g st_h]. rewrite !dot_0l. destruct (Rle_dec _ 0); [ring|lra]. }
  assert (Z : is_derive (fun u => sr (sv_t (dv_var (WalkerDrag d0 d1 d2 Dxi D0 S scale))) (mkSt (D0 - 1 + u) 0 1 0 (fun _ => 0) (fun _ => 0) 0)) 0 0).
  { apply (D_loc (fun _ => 0)); [|apply D_const]. generalize (loc_lt (fun x => x) 0 _ 1 (D_id 0) ltac:(lra)). apply filter_imp. intros u U.
    cbn [dv_var sv_t WalkerDrag sr st_h]. destruct (Rle_dec _ 0); [reflexivity|lra]. }
  apply is_derive_unique in E. apply is_derive_unique in Z. lra.
Qed.

(** ** Kinematic variables *)
Lemma mv_ident k n v i : (i < n)%nat -> mv n (fun p q => k * delta p q) v i = k * v i.
Proof.
  intros Hi. unfold mv. rewrite (rsum_ext n _ (fun j => k * (delta i j * v j))) by (intros; ring). rewrite rsum_scal. f_equal. apply (rsum_delta n i v Hi).
Qed.
Lemma fakin_exact c g P : krate_exact P (kv_p (FAKin c g)) /\ krate_exact P (kv_t (FAKin c g)).
Proof.
  split; [|apply zero_krate_exact].
  intros x t v (Hh & _ & _ & _ & _ & Hg & HT) _ _ i Hi. cbn [kv_p FAKin kr kr_h kr_a kr_ad kr_D kr_s kr_g]. set (T := st_T (x t)) in *.
  apply (D_ext (fun u => 2 / 3 * c T * st_g (x u) i - g T * st_h (x u) i)). { intros u. rewrite (HT u). reflexivity. }
  assert (G1 := Hg i Hi). assert (H1 := Hh i Hi). cbv beta in G1, H1.
  eapply D_eq; [apply D_minus; [apply D_mult; [apply D_const|exact G1]|apply D_mult; [apply D_const|exact H1]]|].
  cbv beta. rewrite !mv_ident by exact Hi. rewrite mv_0l. ring.
Qed.
Lemma k_n_dirv x i : (i < 6)%nat -> k_n x i = dirv (k_d x) i.
Proof. intros Hi. unfold k_n. apply dirv_val, Hi. Qed.
Lemma k_dN_dirm x : sym_norm (k_d x) <> 0 -> k_dN x = dirm (k_d x).
Proof. intros H. unfold k_dN. destruct (Req_EM_T _ 0); [contradiction|reflexivity]. Qed.
Lemma kd_traceless x : traceless (st_h x) -> traceless (k_d x).
Proof.
  unfold traceless. rewrite !wtr. unfold k_d. intros H. generalize (wdev_trace (st_s x)). unfold traceless. rewrite wtr. lra.
Qed.
Lemma k_b_val p x i : (i < 6)%nat ->
  k_b p x i = (1 - k_b0 p (st_T x)) * st_h x i + 2 / 3 * k_b0 p (st_T x) * (dirv (k_d x) i * dot 6 (dirv (k_d x)) (st_h x)).
Proof.
  intros Hi. unfold k_b. rewrite mv_outer, (k_n_dirv x i Hi). rewrite (dot_ext_l 6 (k_n x) (dirv (k_d x))) by (intros; apply k_n_dirv; assumption). ring.
Qed.
(** derivative of the recovery term b *)
Definition k_bv (p : wkin) (x v : vstate vec) : vec := fun i => mv 6 (k_dbx p x) (st_h v) i + mv 6 (k_dbs p x) (st_s v) i.
Lemma k_b_path p c t v : kpath c t v -> traceless (st_h (c t)) -> sym_norm (k_d (c t)) <> 0 ->
  path 6 (fun u => k_b p (c u)) t (k_bv p (c t) v).
Proof.
  intros (Hh & _ & _ & _ & Hs & _ & HT) Ht Hn i Hi.
  assert (Hd : path 6 (fun u => k_d (c u)) t (fun k => sym_dev (st_s v) k - st_h v k)).
  { intros k Hk. unfold k_d. apply D_minus; [apply (wpath_dev _ t _ Hs k Hk)|apply (Hh k Hk)]. }
  assert (Dn := D_dirv _ t _ Hd Hn). set (nv := mv 6 (dirm (k_d (c t))) (fun k => sym_dev (st_s v) k - st_h v k)) in *.
  assert (Dc := D_dot 6 _ _ t _ _ Dn Hh). cbv beta in Dc.
  apply (D_ext (fun u => (1 - k_b0 p (st_T (c t))) * st_h (c u) i + 2 / 3 * k_b0 p (st_T (c t)) * (dirv (k_d (c u)) i * dot 6 (dirv (k_d (c u))) (st_h (c u))))).
  { intros u. rewrite (k_b_val p (c u) i Hi), (HT u). reflexivity. }
  eapply D_eq; [apply D_plus; [apply D_mult; [apply D_const|apply (Hh i Hi)]|apply D_mult; [apply D_const|apply D_mult; [apply (Dn i Hi)|exact Dc]]]|].
  cbv beta. unfold k_bv. set (x := c t) in *. set (b := k_b0 p (st_T x)).
  assert (Htd := kd_traceless x Ht).
  assert (Env : forall k, nv k = mv 6 (dirm (k_d x)) (sym_dev (st_s v)) k - mv 6 (dirm (k_d x)) (st_h v) k).
  { intros k. unfold nv. change (fun k0 => sym_dev (st_s v) k0 - st_h v k0) with (vsub (sym_dev (st_s v)) (st_h v)). apply mv_vsub. }
  assert (E1 : sym_contract (k_n x) (st_h x) = dot 6 (dirv (k_d x)) (st_h x)) by (apply (dot_ext_l 6 (k_n x) (dirv (k_d x)) (st_h x)); intros; apply k_n_dirv; assumption).
  rewrite (mv_mat_ext 6 (k_dbx p x) (fun i j => (1 - b) * delta i j + (dirv (k_d x) i * (dirv (k_d x) j * (2 / 3 * b)))
      - (dirm (k_d x) i j * (2 / 3 * b * dot 6 (dirv (k_d x)) (st_h x)) + dirv (k_d x) i * (mv 6 (dirm (k_d x)) (st_h x) j * (2 / 3 * b))))).
  2:{ intros j Hj. unfold k_dbx. rewrite (k_dN_dirm x Hn), E1, !k_n_dirv by assumption. fold b. ring. }
  rewrite (mv_mat_ext 6 (k_dbs p x) (fun i j => mm 6 (dirm (k_d x)) id_dev i j * (2 / 3 * b * dot 6 (dirv (k_d x)) (st_h x))
      + dirv (k_d x) i * (mv 6 (mm 6 (dirm (k_d x)) id_dev) (st_h x) j * (2 / 3 * b)))).
  2:{ intros j Hj. unfold k_dbs. cbv zeta. rewrite (k_dN_dirm x Hn), E1, !k_n_dirv by assumption. fold b. ring. }
  rewrite mv_minus, !mv_plus, !mv_scale, !mv_outer2, mv_ident by exact Hi.
  rewrite (dirm_dev_mv (k_d x) (st_s v) i Hi).
  rewrite (dot_sym_mat (mm 6 (dirm (k_d x)) id_dev)) by (intros; apply dirm_dev_sym; assumption).
  rewrite (dot_sym_mat (dirm (k_d x))) by (intros; apply dirm_sym).
  rewrite (dot_ext_r 6 (mv 6 (mm 6 (dirm (k_d x)) id_dev) (st_s v)) (mv 6 (dirm (k_d x)) (sym_dev (st_s v)))) by (intros; apply dirm_dev_mv; assumption).
  rewrite (dot_ext_l 6 nv (fun k => mv 6 (dirm (k_d x)) (sym_dev (st_s v)) k + - mv 6 (dirm (k_d x)) (st_h v) k)) by (intros; rewrite Env; ring).
  rewrite dot_plus, dot_opp, Env.
  assert (Dcm : forall p q, dot 6 p q = dot 6 q p) by (intros; unfold dot; apply rsum_ext; intros; ring).
  rewrite (Dcm (st_h x) (mv 6 (dirm (k_d x)) (sym_dev (st_s v)))), (Dcm (st_h x) (mv 6 (dirm (k_d x)) (st_h v))). ring.
Qed.
Lemma k_c_deriv p c t v : kpath c t v -> settled c t -> is_derive (fun u => k_c p (c u)) t (k_dc p (c t) * st_ad v).
Proof.
  intros (_ & _ & Had & _ & _ & _ & HT) [Hp|Hl].
  - apply (D_loc (fun u => k_c0 p (st_T (c t)) + k_c1 p (st_T (c t)) * cpow (st_ad (c u)) (1 / k_c2 p (st_T (c t))))).
    + generalize (loc_gt _ t _ 0 Had Hp). apply filter_imp. intros u U. unfold k_c. cbv zeta. rewrite (HT u). destruct (Rle_dec _ 0); [lra|reflexivity].
    + eapply D_eq; [apply D_plus; [apply D_const|apply D_mult; [apply D_const|apply (D_cpow _ _ t _ Had Hp)]]|].
      cbv beta. unfold k_dc. cbv zeta. destruct (Rle_dec _ 0); [lra|]. unfold Rdiv. ring.
  - apply (D_loc (fun u => k_c0 p (st_T (c t)))).
    + revert Hl. apply filter_imp. intros u U. unfold k_c. cbv zeta. rewrite (HT u). destruct (Rle_dec _ 0); [reflexivity|contradiction].
    + eapply D_eq; [apply D_const|]. assert (U := locally_singleton _ _ Hl). cbv beta in U. unfold k_dc. cbv zeta. destruct (Rle_dec _ 0); [ring|contradiction].
Qed.
Lemma k_L_deriv p c t v : kpath c t v -> 0 < st_a (c t) -> is_derive (fun u => k_L p (c u)) t (k_dL p (c t) * st_a v).
Proof.
  intros (_ & Ha & _ & _ & _ & _ & HT) Hp. set (T := st_T (c t)).
  apply (D_loc (fun u => k_l p T * (k_l1 p T + (1 - k_l1 p T) * exp (- k_l0 p T * st_a (c u))))).
  - generalize (loc_gt _ t _ 0 Ha Hp). apply filter_imp. intros u U. unfold k_L. cbv zeta. rewrite (HT u). fold T. destruct (Rle_dec _ 0); [lra|reflexivity].
  - eapply D_eq; [apply D_mult; [apply D_const|apply D_plus; [apply D_const|apply D_mult; [apply D_const|apply D_exp; apply D_mult; [apply D_const|exact Ha]]]]|].
    cbv beta. unfold k_dL. cbv zeta. fold T. destruct (Rle_dec _ 0); [lra|]. ring.
Qed.
Lemma cpow_sqr x : 0 < x -> cpow x 2 = x * x.
Proof. intros H. rewrite cpow_pos by exact H. replace 2 with (1 + 1) by ring. rewrite Rpower_plus, Rpower_1 by exact H. reflexivity. Qed.
Lemma mv_factor n k (A : mat) v i : mv n (fun p q => k * A p q) v i = k * mv n A v i.
Proof. unfold mv. rewrite <- rsum_scal. apply rsum_ext. intros. ring. Qed.
Lemma wkin_p_exact p Pa : krate_exact (wkin_dom p Pa) (kv_p (WalkerKin p)).
Proof.
  intros c t v Hc Hst (Ht & Hn & Ha & HL & _) i Hi.
  assert (Db := k_b_path p c t v Hc Ht Hn i Hi). cbv beta in Db.
  assert (Dc := k_c_deriv p c t v Hc Hst). assert (DL := k_L_deriv p c t v Hc Ha).
  destruct Hc as (Hh & _ & Had & _ & Hs & Hg & HT).
  cbn [kv_p WalkerKin kr kr_h kr_a kr_ad kr_D kr_s kr_g].
  eapply D_eq.
  { apply D_mult; [exact Dc|apply D_minus; [apply D_mult; [apply D_const|apply (Hg i Hi)]|apply (D_div _ _ t _ _ Db DL)]]. lra. }
  cbv beta. rewrite (cpow_sqr _ HL). unfold k_bv. set (x := c t).
  rewrite (mv_mat_ext 6 (fun i j => - k_c p x * k_dbx p x i j / k_L p x) (fun i j => (- k_c p x / k_L p x) * k_dbx p x i j)) by (intros; unfold Rdiv; ring).
  rewrite (mv_mat_ext 6 (fun i j => - k_c p x * k_dbs p x i j / k_L p x) (fun i j => (- k_c p x / k_L p x) * k_dbs p x i j)) by (intros; unfold Rdiv; ring).
  rewrite !mv_factor, mv_delta by exact Hi. field. unfold x. lra.
Qed.
Lemma wkin_t_exact p Pa : soft_exact Pa (k_soft p) -> krate_exact (wkin_dom p Pa) (kv_t (WalkerKin p)).
Proof.
  intros HS c t v (Hh & Ha & _ & HDv & _ & _ & HT) _ (_ & _ & _ & _ & Hn & HD & HP) i Hi.
  cbn [kv_t WalkerKin kr kr_h kr_a kr_ad kr_D kr_s kr_g]. cbv zeta. set (T := st_T (c t)) in *.
  destruct s32 as [Hq Hqq]. set (q := sqrt (3 / 2)) in *.
  assert (Hp : 0 < norm2 6 (st_h (c t))) by (rewrite wsn in Hn; generalize (norm2_nonneg 6 (st_h (c t))); lra).
  assert (Dn : is_derive (fun u => sym_norm (st_h (c u))) t (dot 6 (st_h (c t)) (st_h v) / sym_norm (st_h (c t)))).
  { apply (D_ext (fun u => norm2 6 (st_h (c u)))). { intros u. symmetry. apply wsn. } rewrite wsn. apply (D_norm2 6 (fun u => st_h (c u)) t _ Hh Hp). }
  rewrite <- wsn in Hp.
  assert (Darg : is_derive (fun u => k_arg (c u)) t (q * (dot 6 (st_h (c t)) (st_h v) / sym_norm (st_h (c t))) / st_D (c t)
      - q * sym_norm (st_h (c t)) / (st_D (c t) * st_D (c t)) * st_D v)).
  { unfold k_arg. fold q. eapply D_eq; [apply D_div; [apply D_mult; [apply D_const|exact Dn]|exact HDv|lra]|cbv beta; field; split; lra]. }
  assert (Hap : 0 < k_arg (c t)) by (unfold k_arg; fold q; apply Rdiv_lt_0_compat; [apply Rmult_lt_0_compat|]; assumption).
  apply (D_loc (fun u => - k_scale p T * k_x0 p T * so_phi (k_soft p) (st_a (c u)) T * cpow (k_arg (c u)) (k_x1 p T) * (st_h (c u) i / (sym_norm (st_h (c u)) * q)))).
  { generalize (filter_and _ _ (loc_gt _ t _ 0 Dn Hp) (loc_gt _ t _ 0 HDv HD)). apply filter_imp. intros u [U1 U2]. unfold k_off.
    destruct (Req_EM_T _ 0); [lra|]. destruct (Rle_dec _ 0); [lra|]. rewrite (HT u). fold T. unfold Rdiv. ring. }
  eapply D_eq.
  { apply D_mult; [apply D_mult; [apply D_mult; [apply D_const|apply (D_comp (fun x => so_phi (k_soft p) x T) (fun u => st_a (c u))); [exact Ha|apply HS, HP]]|apply (D_cpow _ (k_x1 p T) t _ Darg Hap)]|].
    apply (D_div (fun u => st_h (c u) i) (fun u => sym_norm (st_h (c u)) * q)); [apply (Hh i Hi)|apply D_mult; [exact Dn|apply D_const]|].
    apply Rmult_integral_contrapositive_currified; lra. }
  cbv beta. unfold k_off. destruct (Req_EM_T _ 0) as [|_]; [contradiction|]. destruct (Rle_dec _ 0) as [|_]; [lra|]. rewrite !mv_0l.
  set (x := c t) in *. set (A := - k_scale p T * k_x0 p T). set (n := sym_norm (st_h x)) in *.
  rewrite (mv_mat_ext 6 _ (fun i j => (A * so_phi (k_soft p) (st_a x) T * cpow (k_arg x) (k_x1 p T) * (1 / (q * n))) * delta i j
     + st_h x i * (st_h x j * (A * so_phi (k_soft p) (st_a x) T * (k_x1 p T / st_D x * cpow (k_arg x) (k_x1 p T - 1) - cpow (k_arg x) (k_x1 p T) * (1 / (q * n))) / (n * n))))).
  2:{ intros j Hj. cbv beta zeta. fold q n A. field. repeat split; lra. }
  rewrite mv_plus, mv_outer2, mv_factor, mv_delta by exact Hi. fold q. 
  unfold A. field. repeat split; lra.
Qed.

From Verif Require Import Base.
From Verif Require Import Diff.
From Verif Require Import NemlMathModel NemlMathSpec NemlMathProofs SurfModel SurfSpec SurfProofs HardModel HardProofs PlastModel PlastSpec PlastProofs RiProofs ViscoModel ViscoSpec ViscoProofs TensorModel TensorSpec TensorProofs WalkerModel WalkerSpec WalkerProofs.

(** ** Derivatives of the Walker flow rule *)
Lemma dot_hist m p v : dot (3 + 6 * m) p v = p 0%nat * v 0%nat + p 1%nat * v 1%nat + p 2%nat * v 2%nat + rsum m (fun i => dot 6 (wX p i) (wX v i)).
Proof. unfold dot at 1. rewrite rsum_hist. reflexivity. Qed.
Lemma dot_sym_mat M p q : (forall i j, (i < 6)%nat -> (j < 6)%nat -> M i j = M j i) -> dot 6 (mv 6 M p) q = dot 6 p (mv 6 M q).
Proof.
  intros H. unfold dot, mv. rewrite (rsum_ext 6 _ (fun i => rsum 6 (fun j => M i j * p j * q i))) by (intros; rewrite <- rsum_scal_r; reflexivity).
  rewrite rsum_swap. apply rsum_ext. intros j Hj. rewrite <- rsum_scal. apply rsum_ext. intros i Hi. rewrite (H i j Hi Hj). ring.
Qed.
Lemma path_TX w (a : R -> vec) t va : path (3 + 6 * w_nX w) a t va -> path 6 (fun u => w_TX w (a u)) t (w_TX w va).
Proof.
  intros H k Hk. unfold w_TX. apply (D_rsum (w_nX w) (fun u i => wX (a u) i k) t (fun i => wX va i k)). intros i Hi. unfold wX. apply H. lia.
Qed.
Lemma path_wX w (a : R -> vec) t va i : (i < w_nX w)%nat -> path (3 + 6 * w_nX w) a t va -> path 6 (fun u => wX (a u) i) t (wX va i).
Proof. intros Hi H k Hk. unfold wX. apply H. lia. Qed.
Definition w_dv (w : walker) (vs va : vec) : vec := fun k => sym_dev vs k - w_TX w va k.
Lemma path_wd w (s a : R -> vec) t vs va : path 6 s t vs -> path (3 + 6 * w_nX w) a t va ->
  path 6 (fun u => w_d w (s u) (a u)) t (w_dv w vs va).
Proof. intros Hs Ha k Hk. unfold w_d, w_dv. apply D_minus; [apply (wpath_dev s t vs Hs k Hk)|apply (path_TX w a t va Ha k Hk)]. Qed.
Lemma wd_traceless w s a : (forall i, (i < w_nX w)%nat -> traceless (wX a i)) -> traceless (w_d w s a).
Proof.
  intros H. unfold traceless. rewrite wtr. unfold w_d, w_TX.
  replace (sym_dev s 0%nat - _ + _ + _) with ((sym_dev s 0%nat + sym_dev s 1%nat + sym_dev s 2%nat)
    - (rsum (w_nX w) (fun i => wX a i 0%nat) + rsum (w_nX w) (fun i => wX a i 1%nat) + rsum (w_nX w) (fun i => wX a i 2%nat))) by ring.
  rewrite <- !rsum_plus. rewrite (rsum_ext (w_nX w) _ (fun _ => 0)).
  - rewrite rsum_0. generalize (wdev_trace s). unfold traceless. rewrite wtr. lra.
  - intros i Hi. generalize (H i Hi). unfold traceless. rewrite wtr. auto.
Qed.
Lemma w_g_dirv w s a i : (i < 6)%nat -> w_g w s a i = dirv (w_d w s a) i.
Proof. intros Hi. unfold w_g. apply dirv_val, Hi. Qed.
Lemma w_G_dirm w s a i j : sym_norm (w_d w s a) <> 0 -> w_G w s a i j = dirm (w_d w s a) i j.
Proof. intros H. unfold w_G. cbv zeta. destruct (Req_EM_T _ 0); [contradiction|reflexivity]. Qed.
Lemma w_G_eq w s a : sym_norm (w_d w s a) <> 0 -> w_G w s a = dirm (w_d w s a).
Proof. intros H. unfold w_G. cbv zeta. destruct (Req_EM_T _ 0); [contradiction|reflexivity]. Qed.
Lemma dirm_TX w d va j : (j < 6)%nat -> rsum (w_nX w) (fun i => mv 6 (dirm d) (wX va i) j) = mv 6 (dirm d) (w_TX w va) j.
Proof.
  intros Hj. unfold mv, w_TX. rewrite rsum_swap. apply rsum_ext. intros k _. rewrite <- rsum_scal. reflexivity.
Qed.
Lemma w_ga_mv w s a va j : (j < 6)%nat -> sym_norm (w_d w s a) <> 0 ->
  mv (3 + 6 * w_nX w) (w_ga w s a) va j = - mv 6 (dirm (w_d w s a)) (w_TX w va) j.
Proof.
  intros Hj H. change (mv (3 + 6 * w_nX w) (w_ga w s a) va j) with (dot (3 + 6 * w_nX w) (whist 0 0 0 (fun _ k => - w_G w s a k j)) va).
  rewrite dot_whist. rewrite <- (dirm_TX w _ va j Hj). rewrite <- rsum_opp. rewrite !Rmult_0_l, !Rplus_0_l.
  apply rsum_ext. intros i _. unfold dot, mv. rewrite <- rsum_opp. apply rsum_ext. intros k _. rewrite (w_G_dirm w s a k j H), (dirm_sym _ k j). ring.
Qed.
Lemma w_gs_mv w s a vs j : (j < 6)%nat -> sym_norm (w_d w s a) <> 0 ->
  mv 6 (w_gs w s a) vs j = mv 6 (dirm (w_d w s a)) (sym_dev vs) j.
Proof. intros Hj H. unfold w_gs. rewrite (w_G_eq w s a H). apply dirm_dev_mv, Hj. Qed.
Lemma w_gs_sym w s a i j : (i < 6)%nat -> (j < 6)%nat -> sym_norm (w_d w s a) <> 0 -> traceless (w_d w s a) -> w_gs w s a i j = w_gs w s a j i.
Proof. intros Hi Hj H Ht. unfold w_gs. rewrite (w_G_eq w s a H). apply dirm_dev_sym; assumption. Qed.
Definition w_gv w (s a vs va : vec) : vec := vadd (mv 6 (w_gs w s a) vs) (mv (3 + 6 * w_nX w) (w_ga w s a) va).
Lemma w_gv_val w s a vs va i : (i < 6)%nat -> sym_norm (w_d w s a) <> 0 -> w_gv w s a vs va i = mv 6 (dirm (w_d w s a)) (w_dv w vs va) i.
Proof.
  intros Hi H. unfold w_gv, vadd. rewrite w_gs_mv, w_ga_mv by assumption. change (w_dv w vs va) with (vsub (sym_dev vs) (w_TX w va)). rewrite mv_vsub. ring.
Qed.
Lemma w_g_path w (s a : R -> vec) t vs va : path 6 s t vs -> path (3 + 6 * w_nX w) a t va -> sym_norm (w_d w (s t) (a t)) <> 0 ->
  path 6 (fun u => w_g w (s u) (a u)) t (w_gv w (s t) (a t) vs va).
Proof.
  intros Hs Ha H i Hi. rewrite w_gv_val by assumption.
  apply (D_ext (fun u => dirv (w_d w (s u) (a u)) i)). { intros u. symmetry. apply w_g_dirv, Hi. }
  apply (D_dirv _ t _ (path_wd w s a t vs va Hs Ha) H i Hi).
Qed.

(** ** The flow rate *)
Lemma w_Y_deriv w (a : R -> vec) t va T : path (3 + 6 * w_nX w) a t va -> 0 < dv_xi (w_D w) T -> a t 2%nat <> dv_0 (w_D w) T ->
  exists yd, is_derive (fun u => w_Y w (a u) T) t yd /\
   (dv_0 (w_D w) T < a t 2%nat ->
      let xi := (a t 2%nat - dv_0 (w_D w) T) / dv_xi (w_D w) T in
      w_Y w (a t) T = (w_k w T + a t 1%nat) * cpow xi (w_m w T) /\
      yd = va 1%nat * cpow xi (w_m w T) + (w_k w T + a t 1%nat) * (w_m w T * cpow xi (w_m w T - 1) * (va 2%nat / dv_xi (w_D w) T))).
Proof.
  intros Ha Hx HD.
  assert (A1 := Ha 1%nat ltac:(lia)). assert (A2 := Ha 2%nat ltac:(lia)). cbv beta in A1, A2.
  assert (Dxi : is_derive (fun u => (a u 2%nat - dv_0 (w_D w) T) / dv_xi (w_D w) T) t (va 2%nat / dv_xi (w_D w) T)).
  { eapply D_eq; [apply (D_div (fun u => a u 2%nat - dv_0 (w_D w) T) (fun _ => dv_xi (w_D w) T)); [apply D_minus; [exact A2|apply D_const]|apply D_const|lra]|cbv beta; field; lra]. }
  destruct (Rlt_dec (a t 2%nat) (dv_0 (w_D w) T)) as [L|L].
  - exists (va 1%nat * cpow 0 (w_m w T)). split; [|intros; lra].
    assert (Hxi : (a t 2%nat - dv_0 (w_D w) T) / dv_xi (w_D w) T < 0).
    { apply Ropp_lt_cancel. rewrite Ropp_0. replace (- _) with ((dv_0 (w_D w) T - a t 2%nat) * / dv_xi (w_D w) T) by (field; lra).
      apply Rmult_lt_0_compat; [lra|apply Rinv_0_lt_compat, Hx]. }
    apply (D_loc (fun u => (w_k w T + a u 1%nat) * cpow 0 (w_m w T))).
    + generalize (loc_lt _ t _ 0 Dxi Hxi). apply filter_imp. intros u Hu. cbv beta in Hu. unfold w_Y. cbv zeta.
      destruct (Rlt_dec _ 0); [reflexivity|contradiction].
    + eapply D_eq; [apply D_mult; [apply D_plus; [apply D_const|exact A1]|apply D_const]|cbv beta; ring].
  - assert (Hxi : 0 < (a t 2%nat - dv_0 (w_D w) T) / dv_xi (w_D w) T) by (apply Rdiv_lt_0_compat; lra).
    eexists. split; [|intros _; cbv zeta; split; [unfold w_Y; cbv zeta; destruct (Rlt_dec _ 0); [lra|reflexivity]|reflexivity]].
    apply (D_loc (fun u => (w_k w T + a u 1%nat) * cpow ((a u 2%nat - dv_0 (w_D w) T) / dv_xi (w_D w) T) (w_m w T))).
    + generalize (loc_gt _ t _ 0 Dxi Hxi). apply filter_imp. intros u Hu. cbv beta in Hu. unfold w_Y. cbv zeta.
      destruct (Rlt_dec _ 0); [lra|reflexivity].
    + eapply D_eq; [apply D_mult; [apply D_plus; [apply D_const|exact A1]|apply (D_cpow _ (w_m w T) t _ Dxi Hxi)]|cbv beta; ring].
Qed.
Lemma w_over_deriv w (s a : R -> vec) t vs va T : path 6 s t vs -> path (3 + 6 * w_nX w) a t va ->
  0 < dv_xi (w_D w) T -> a t 2%nat <> dv_0 (w_D w) T -> a t 2%nat <> 0 -> sym_norm (w_d w (s t) (a t)) <> 0 ->
  exists od, is_derive (fun u => w_over w (s u) (a u) T) t od /\
   (dv_0 (w_D w) T < a t 2%nat ->
      let xi := (a t 2%nat - dv_0 (w_D w) T) / dv_xi (w_D w) T in
      let d := w_d w (s t) (a t) in let D := a t 2%nat in let kR := w_k w T + a t 1%nat in
      od = (sqrt (3 / 2) * (dot 6 d (w_dv w vs va) / sym_norm d)
            - (va 1%nat * cpow xi (w_m w T) + kR * (w_m w T * cpow xi (w_m w T - 1) * (va 2%nat / dv_xi (w_D w) T)))) / D
           - (sqrt (3 / 2) * sym_norm d - kR * cpow xi (w_m w T)) / (D * D) * va 2%nat).
Proof.
  intros Hs Ha Hx HD H0 Hn. destruct (w_Y_deriv w a t va T Ha Hx HD) as (yd & Dy & Hy).
  assert (A2 := Ha 2%nat ltac:(lia)). cbv beta in A2.
  assert (Dn : is_derive (fun u => sym_norm (w_d w (s u) (a u))) t (dot 6 (w_d w (s t) (a t)) (w_dv w vs va) / sym_norm (w_d w (s t) (a t)))).
  { apply (D_ext (fun u => norm2 6 (w_d w (s u) (a u)))). { intros u. symmetry. apply wsn. } rewrite wsn in *.
    apply (D_norm2 6 (fun u => w_d w (s u) (a u)) t); [apply path_wd; assumption|]. cbv beta. generalize (norm2_nonneg 6 (w_d w (s t) (a t))). lra. }
  eexists. split.
  - unfold w_over. apply D_div; [apply D_minus; [apply D_mult; [apply D_const|exact Dn]|exact Dy]|exact A2|exact H0].
  - intros L. cbv zeta. destruct (Hy L) as [E1 E2]. cbv zeta in E1, E2. rewrite E1, E2. cbv beta. match goal with |- ?x = ?y => change (@eq R x y) end. field. repeat split; try assumption; lra.
Qed.
Lemma dot_w_dv w d vs va : traceless d -> dot 6 d (w_dv w vs va) = dot 6 d vs - rsum (w_nX w) (fun i => dot 6 d (wX va i)).
Proof.
  intros Ht. unfold w_dv. transitivity (dot 6 d (sym_dev vs) - dot 6 d (w_TX w va)).
  - unfold dot. rewrite <- rsum_minus. apply rsum_ext. intros. ring.
  - rewrite (wdev_orth d vs Ht). f_equal. unfold dot, w_TX. rewrite rsum_swap. apply rsum_ext. intros k _. rewrite <- rsum_scal. reflexivity.
Qed.
Lemma dot_ys w s a T vs : sym_norm (w_d w s a) <> 0 -> traceless (w_d w s a) ->
  dot 6 (w_ys w s a T) vs = w_pre w a T * w_dflow w s a T * sqrt (3 / 2) / (a 2%nat * sym_norm (w_d w s a)) * dot 6 (w_d w s a) vs.
Proof.
  intros Hn Ht. unfold dot. rewrite <- rsum_scal. apply rsum_ext. intros i Hi. unfold w_ys. destruct (Req_EM_T _ 0) as [E|_]; [contradiction|].
  rewrite (wid_dev _ i Hi), (wdev_id _ i Ht). ring.
Qed.
Lemma dot_ya w s a T va : sym_norm (w_d w s a) <> 0 ->
  let D := a 2%nat in let m := w_m w T in let Dr := w_Dr w a T in let kR := w_k w T + a 1%nat in
  let nd := sym_norm (w_d w s a) in let pf := w_pre w a T * w_dflow w s a T in
  dot (3 + 6 * w_nX w) (w_ya w s a T) va =
   w_eps0 w T * so_dphi (w_soft w) (a 0%nat) T * w_scale w T * w_flow w s a T * va 0%nat
   - pf * cpow Dr m / D * va 1%nat
   + pf * (- kR * m * cpow Dr (m - 1) / (dv_xi (w_D w) T * D) + - (sqrt (3 / 2) * nd - kR * cpow Dr m) / (D * D)) * va 2%nat
   - pf * sqrt (3 / 2) / (D * nd) * rsum (w_nX w) (fun i => dot 6 (w_d w s a) (wX va i)).
Proof.
  intros Hn. cbv zeta. unfold w_ya. cbv zeta. rewrite dot_whist. destruct (Req_EM_T _ 0) as [E|_]; [contradiction|].
  rewrite (rsum_ext (w_nX w) (fun i => dot 6 (fun k => - w_pre w a T * w_dflow w s a T * sqrt (3 / 2) / (a 2%nat * sym_norm (w_d w s a)) * w_d w s a k) (wX va i))
     (fun i => (- (w_pre w a T * w_dflow w s a T * sqrt (3 / 2) / (a 2%nat * sym_norm (w_d w s a)))) * dot 6 (w_d w s a) (wX va i))).
  - rewrite rsum_scal. unfold Rdiv. ring.
  - intros i _. unfold dot. rewrite <- rsum_scal. apply rsum_ext. intros k _. unfold Rdiv. ring.
Qed.
Lemma w_pre_deriv w Pa (a : R -> vec) t va T : soft_exact Pa (w_soft w) -> path (3 + 6 * w_nX w) a t va -> Pa (a t 0%nat) T ->
  is_derive (fun u => w_pre w (a u) T) t (w_eps0 w T * so_dphi (w_soft w) (a t 0%nat) T * w_scale w T * va 0%nat).
Proof.
  intros HS Ha HP. assert (A0 := Ha 0%nat ltac:(lia)). cbv beta in A0. unfold w_pre.
  eapply D_eq; [apply D_mult; [apply D_mult; [apply D_const|apply (D_comp (fun x => so_phi (w_soft w) x T) (fun u => a u 0%nat)); [exact A0|apply HS, HP]]|apply D_const]|cbv beta; ring].
Qed.
Lemma w_dead w (s a : R -> vec) t vs va T : path 6 s t vs -> path (3 + 6 * w_nX w) a t va ->
  0 < dv_xi (w_D w) T -> a t 2%nat <> dv_0 (w_D w) T -> a t 2%nat <> 0 -> sym_norm (w_d w (s t) (a t)) <> 0 ->
  w_over w (s t) (a t) T < 0 -> locally t (fun u => w_y w (s u) (a u) T = 0).
Proof.
  intros Hs Ha Hx HD H0 Hn Ho. destruct (w_over_deriv w s a t vs va T Hs Ha Hx HD H0 Hn) as (od & Dov & _).
  generalize (loc_lt _ t _ 0 Dov Ho). apply filter_imp. intros u Hu. unfold w_y, w_flow. destruct (Rle_dec _ 0); [ring|lra].
Qed.
Lemma w_y_exact w Pa T : soft_exact Pa (w_soft w) ->
  is_grad2 6 (3 + 6 * w_nX w) (w_domain w Pa T) (fun s a => w_y w s a T) (fun s a => w_ys w s a T) (fun s a => w_ya w s a T).
Proof.
  intros HS s a t vs va Hs Ha (Hn & H0 & Hx & HP & Ht & Hb).
  assert (Htd := wd_traceless w (s t) (a t) Ht).
  rewrite (dot_ys w _ _ T vs Hn Htd), (dot_ya w (s t) (a t) T va Hn).
  destruct Hb as [(Ho & HD & Hp)|(Ho & HD)].
  - destruct (w_over_deriv w s a t vs va T Hs Ha Hx ltac:(lra) H0 Hn) as (od & Dov & Eo). specialize (Eo HD). cbv zeta in Eo.
    apply (D_loc (fun u => w_pre w (a u) T * cpow (w_over w (s u) (a u) T) (w_n w T))).
    + generalize (loc_gt _ t _ 0 Dov Ho). apply filter_imp. intros u Hu. unfold w_y, w_flow. destruct (Rle_dec _ 0); [lra|]. rewrite Rabs_pos_eq by lra. reflexivity.
    + eapply D_eq; [apply D_mult; [apply (w_pre_deriv w Pa a t va T HS Ha HP)|apply (D_cpow _ (w_n w T) t _ Dov Ho)]|].
      cbv beta. rewrite Eo, (dot_w_dv w _ vs va Htd). unfold w_flow, w_dflow. destruct (Rle_dec _ 0) as [|_]; [lra|]. rewrite Rabs_pos_eq by lra.
      unfold w_Dr. cbv zeta. destruct (Rlt_dec 0 _) as [_|N]; [|lra].
      field. repeat split; first [assumption|lra].
  - eapply D_loc. { generalize (w_dead w s a t vs va T Hs Ha Hx HD H0 Hn Ho). apply filter_imp. intros u Hu. rewrite Hu. symmetry. reflexivity. }
    cbv beta. eapply D_eq; [apply (D_const 0)|]. unfold w_flow, w_dflow. destruct (Rle_dec _ 0) as [_|]; [|lra]. unfold Rdiv. ring.
Qed.

(** ** The history rates *)
Definition w_yv w (s a : vec) T (vs va : vec) : R := dot 6 (w_ys w s a T) vs + dot (3 + 6 * w_nX w) (w_ya w s a T) va.
Definition w_vel {V} w (s a : vec) T (vs va : vec) (h : V) : vstate V :=
  mkSt h (va 0%nat) (w_yv w s a T vs va) (va 2%nat) vs (w_gv w s a vs va) T.
Lemma w_settled {V} w Pa (s a : R -> vec) t vs va T (h : R -> V) : path 6 s t vs -> path (3 + 6 * w_nX w) a t va ->
  w_domain w Pa T (s t) (a t) -> settled (fun u => w_state w (s u) (a u) T (h u)) t.
Proof.
  intros Hs Ha (Hn & H0 & Hx & HP & Ht & Hb). unfold settled. cbn [st_ad w_state]. destruct Hb as [(Ho & HD & Hp)|(Ho & HD)].
  - left. unfold w_y, w_flow. destruct (Rle_dec _ 0); [lra|]. apply Rmult_lt_0_compat; [exact Hp|]. rewrite Rabs_pos_eq by lra.
    rewrite cpow_pos by exact Ho. apply exp_pos.
  - right. generalize (w_dead w s a t vs va T Hs Ha Hx HD H0 Hn Ho). apply filter_imp. intros u Hu. rewrite Hu. lra.
Qed.
Lemma w_kpath w Pa (s a : R -> vec) t vs va T (h : R -> vec) vh : soft_exact Pa (w_soft w) -> path 6 s t vs -> path (3 + 6 * w_nX w) a t va ->
  w_domain w Pa T (s t) (a t) -> path 6 h t vh -> kpath (fun u => w_state w (s u) (a u) T (h u)) t (w_vel w (s t) (a t) T vs va vh).
Proof.
  intros HS Hs Ha HD Hh. unfold kpath. cbn [st_h st_a st_ad st_D st_s st_g st_T w_state w_vel].
  split; [exact Hh|]. split; [apply (Ha 0%nat); lia|]. split; [apply (w_y_exact w Pa T HS s a t vs va Hs Ha HD)|].
  split; [apply (Ha 2%nat); lia|]. split; [exact Hs|]. split; [apply w_g_path; try assumption; apply HD|reflexivity].
Qed.
Lemma w_spath w Pa (s a : R -> vec) t vs va T (h : R -> R) vh : soft_exact Pa (w_soft w) -> path 6 s t vs -> path (3 + 6 * w_nX w) a t va ->
  w_domain w Pa T (s t) (a t) -> is_derive h t vh -> spath (fun u => w_state w (s u) (a u) T (h u)) t (w_vel w (s t) (a t) T vs va vh).
Proof.
  intros HS Hs Ha HD Hh. unfold spath. cbn [st_h st_a st_ad st_D st_s st_g st_T w_state w_vel].
  split; [exact Hh|]. split; [apply (Ha 0%nat); lia|]. split; [apply (w_y_exact w Pa T HS s a t vs va Hs Ha HD)|].
  split; [apply (Ha 2%nat); lia|]. split; [exact Hs|]. split; [apply w_g_path; try assumption; apply HD|reflexivity].
Qed.
Lemma contract_0 p : sym_contract p (fun _ => 0) = 0.
Proof. unfold sym_contract. rewrite (rsum_ext 6 _ (fun _ => 0)), rsum_0; [reflexivity|intros; ring]. Qed.
Lemma mv_0 n M i : mv n M (fun _ => 0) i = 0.
Proof. unfold mv. rewrite (rsum_ext n _ (fun _ => 0)), rsum_0; [reflexivity|intros; ring]. Qed.
Lemma dot_plus n p q v : dot n (fun i => p i + q i) v = dot n p v + dot n q v.
Proof. unfold dot. rewrite <- rsum_plus. apply rsum_ext. intros. ring. Qed.
Lemma dot_scal n k p v : dot n (fun i => k * p i) v = k * dot n p v.
Proof. unfold dot. rewrite <- rsum_scal. apply rsum_ext. intros. ring. Qed.
Lemma dot_opp n p v : dot n (fun i => - p i) v = - dot n p v.
Proof. unfold dot. rewrite <- rsum_opp. apply rsum_ext. intros. ring. Qed.
Lemma dot_oppr n p v : dot n v (fun i => - p i) = - dot n v p.
Proof. unfold dot. rewrite <- rsum_opp. apply rsum_ext. intros. ring. Qed.
Lemma dot_addr n p q v : dot n v (vadd p q) = dot n v p + dot n v q.
Proof. unfold dot, vadd. rewrite <- rsum_plus. apply rsum_ext. intros. ring. Qed.
Lemma dot_ext_l n p q v : (forall i, (i < n)%nat -> p i = q i) -> dot n p v = dot n q v.
Proof. intros H. unfold dot. apply rsum_ext. intros i Hi. rewrite (H i Hi). reflexivity. Qed.
Lemma dot_ext_r n p q v : (forall i, (i < n)%nat -> p i = q i) -> dot n v p = dot n v q.
Proof. intros H. unfold dot. apply rsum_ext. intros i Hi. rewrite (H i Hi). reflexivity. Qed.
(** chain rule through the direction, in s and in a *)
Lemma chain_gs w s a p vs : sym_norm (w_d w s a) <> 0 -> traceless (w_d w s a) -> dot 6 (mv 6 (w_gs w s a) p) vs = dot 6 p (mv 6 (w_gs w s a) vs).
Proof. intros Hn Ht. apply dot_sym_mat. intros i j Hi Hj. apply w_gs_sym; assumption. Qed.
Lemma chain_ga w s a p va : sym_norm (w_d w s a) <> 0 ->
  rsum (w_nX w) (fun i => dot 6 (mv 6 (fun x y => - w_G w s a x y) p) (wX va i)) = dot 6 p (mv (3 + 6 * w_nX w) (w_ga w s a) va).
Proof.
  intros Hn. rewrite (dot_ext_r 6 _ (fun j => - mv 6 (dirm (w_d w s a)) (w_TX w va) j)) by (intros; apply w_ga_mv; assumption).
  rewrite dot_oppr, <- dot_sym_mat by (intros; apply dirm_sym). rewrite (w_G_eq w s a Hn).
  rewrite (rsum_ext (w_nX w) _ (fun i => - dot 6 (mv 6 (dirm (w_d w s a)) p) (wX va i))).
  - rewrite rsum_opp. f_equal. unfold dot, w_TX. rewrite rsum_swap. apply rsum_ext. intros k _. rewrite <- rsum_scal. reflexivity.
  - intros i _. rewrite <- dot_opp. apply dot_ext_l. intros k Hk. unfold mv. rewrite <- rsum_opp. apply rsum_ext. intros. ring.
Qed.
Lemma dot_row n (M : mat) v r : mv n M v r = dot n (M r) v.
Proof. reflexivity. Qed.

(** one scalar row *)
Lemma scal_row w Pa s a T (va p : vec) (ca chR chD k : R) : w_domain w Pa T s a ->
  dot (3 + 6 * w_nX w) (whist (ca + k * w_ya w s a T 0%nat) (chR + k * w_ya w s a T 1%nat) (chD + k * w_ya w s a T 2%nat)
      (fun y l => k * wX (w_ya w s a T) y l + mv 6 (fun x y => - w_G w s a x y) p l)) va
  = ca * va 0%nat + chR * va 1%nat + chD * va 2%nat + k * dot (3 + 6 * w_nX w) (w_ya w s a T) va
    + dot 6 p (mv (3 + 6 * w_nX w) (w_ga w s a) va).
Proof.
  intros (Hn & _). rewrite <- (chain_ga w s a p va Hn), dot_whist, (dot_hist _ (w_ya w s a T) va).
  rewrite (rsum_ext (w_nX w) (fun i => dot 6 (fun l => k * wX (w_ya w s a T) i l + mv 6 (fun x y => - w_G w s a x y) p l) (wX va i))
    (fun i => k * dot 6 (wX (w_ya w s a T) i) (wX va i) + dot 6 (mv 6 (fun x y => - w_G w s a x y) p) (wX va i))).
  - rewrite rsum_plus, rsum_scal. ring.
  - intros i _. rewrite dot_plus, dot_scal. reflexivity.
Qed.
Lemma delta_block w i (p : vec) va : (i < w_nX w)%nat ->
  rsum (w_nX w) (fun y => dot 6 (fun l => if Nat.eqb y i then p l else 0) (wX va y)) = dot 6 p (wX va i).
Proof.
  intros Hi. rewrite (rsum_ext (w_nX w) _ (fun y => delta i y * dot 6 p (wX va y))).
  - apply (rsum_delta (w_nX w) i (fun y => dot 6 p (wX va y)) Hi).
  - intros y _. unfold delta. rewrite (Nat.eqb_sym i y). destruct (Nat.eqb y i).
    + rewrite Rmult_1_l. reflexivity.
    + unfold dot. rewrite (rsum_ext 6 _ (fun _ => 0)), rsum_0 by (intros; ring). ring.
Qed.
Lemma w_rates_exact w Pa PR PD PX ar ps pk : soft_exact Pa (w_soft w) ->
  srate_exact PR (ps (w_R w)) -> srate_exact PD (ps (dv_var (w_D w))) -> (forall x, sr_D (ps (dv_var (w_D w))) x = 0) ->
  (forall i, (i < w_nX w)%nat -> krate_exact (PX i) (pk (w_X w i))) ->
  part_exact (3 + 6 * w_nX w) (3 + 6 * w_nX w) (fun T s a => w_domain w Pa T s a /\ w_var_domain w PR PD PX T s a) (w_rates w ar ps pk).
Proof.
  intros HS HR HD HD0 HX T s a t vs va Hs Ha [Hd (QR & QD & QX)].
  assert (Hn : sym_norm (w_d w (s t) (a t)) <> 0) by apply Hd.
  assert (Htd : traceless (w_d w (s t) (a t))) by (apply wd_traceless; apply Hd).
  intros r Hr. destruct (hist_index _ r Hr) as [->|[->|[->|(i & k & Hi & Hk & ->)]]].
  - cbn [pv w_rates whist]. eapply D_eq; [apply D_const|]. unfold vadd. rewrite !dot_row. cbn [pds pda w_rates whist].
    unfold dot. rewrite (rsum_ext 6 _ (fun _ => 0)), rsum_0 by (intros; ring).
    rewrite (rsum_ext (3 + 6 * w_nX w) _ (fun _ => 0)), rsum_0 by (intros; ring). ring.
  - cbn [pv w_rates whist].
    eapply D_eq; [apply (HR _ t _ (w_spath w Pa s a t vs va T (fun u => a u 1%nat) (va 1%nat) HS Hs Ha Hd (Ha 1%nat ltac:(lia)))
       (w_settled w Pa s a t vs va T _ Hs Ha Hd) QR)|].
    unfold vadd. rewrite !dot_row. cbn [pds pda w_rates whist st_h st_a st_ad st_D st_s st_g w_vel].
    rewrite !contract_0, !Rplus_0_r.
    set (x := w_state w (s t) (a t) T (a t 1%nat)). set (q := ps (w_R w)).
    change (dot (3 + 6 * w_nX w) (fun c : nat => whist ?A ?B ?C ?F c) va) with (dot (3 + 6 * w_nX w) (whist A B C F) va).
    rewrite (scal_row w Pa (s t) (a t) T va (sr_g q x) (sr_a q x) (sr_h q x) (sr_D q x) (sr_ad q x) Hd).
    rewrite !dot_plus, dot_scal, (chain_gs w (s t) (a t) _ vs Hn Htd).
    unfold w_yv, w_gv. rewrite dot_addr. ring.
  - cbn [pv w_rates whist].
    eapply D_eq; [apply (HD _ t _ (w_spath w Pa s a t vs va T (fun u => a u 2%nat) (va 2%nat) HS Hs Ha Hd (Ha 2%nat ltac:(lia)))
       (w_settled w Pa s a t vs va T _ Hs Ha Hd) QD)|].
    unfold vadd. rewrite !dot_row. cbn [pds pda w_rates whist st_h st_a st_ad st_D st_s st_g w_vel].
    rewrite !contract_0, !Rplus_0_r, HD0.
    set (x := w_state w (s t) (a t) T (a t 2%nat)). set (q := ps (dv_var (w_D w))).
    rewrite <- (Rplus_0_l (sr_ad q x * w_ya w (s t) (a t) T 1%nat)).
    change (dot (3 + 6 * w_nX w) (fun c : nat => whist ?A ?B ?C ?F c) va) with (dot (3 + 6 * w_nX w) (whist A B C F) va).
    rewrite (scal_row w Pa (s t) (a t) T va (sr_g q x) (sr_a q x) 0 (sr_h q x) (sr_ad q x) Hd).
    rewrite !dot_plus, dot_scal, (chain_gs w (s t) (a t) _ vs Hn Htd).
    unfold w_yv, w_gv. rewrite dot_addr. ring.
  - apply (D_ext (fun u => kr (pk (w_X w i)) (w_state w (s u) (a u) T (wX (a u) i)) k)).
    { intros u. cbn [pv w_rates]. rewrite whist_X by exact Hk. reflexivity. }
    eapply D_eq; [apply (HX i Hi _ t _ (w_kpath w Pa s a t vs va T (fun u => wX (a u) i) (wX va i) HS Hs Ha Hd (path_wX w a t va i Hi Ha))
       (w_settled w Pa s a t vs va T _ Hs Ha Hd) (QX i Hi) k Hk)|].
    unfold vadd. rewrite !dot_row. cbn [st_h st_a st_ad st_D st_s st_g w_vel].
    set (x := w_state w (s t) (a t) T (wX (a t) i)). set (q := pk (w_X w i)).
    rewrite (dot_ext_l 6 (pds (w_rates w ar ps pk) (s t) (a t) T (3 + 6 * i + k)%nat)
       (fun j => kr_s q x k j + kr_ad q x k * w_ys w (s t) (a t) T j + mv 6 (w_gs w (s t) (a t)) (kr_g q x k) j)).
    2:{ intros j Hj. cbn [pds w_rates]. rewrite whist_X by exact Hk. fold q. f_equal. unfold mm, mv. apply rsum_ext. intros l Hl. rewrite (w_gs_sym w _ _ l j Hl Hj Hn Htd). fold x. ring. }
    rewrite (dot_ext_l (3 + 6 * w_nX w) (pda (w_rates w ar ps pk) (s t) (a t) T (3 + 6 * i + k)%nat) (fun c => whist (kr_a q x k + kr_ad q x k * w_ya w (s t) (a t) T 0%nat)
       (0 + kr_ad q x k * w_ya w (s t) (a t) T 1%nat) (kr_D q x k + kr_ad q x k * w_ya w (s t) (a t) T 2%nat)
       (fun y l => kr_ad q x k * wX (w_ya w (s t) (a t) T) y l + mv 6 (fun x y => - w_G w (s t) (a t) x y) (kr_g q x k) l) c
       + whist 0 0 0 (fun y l => if Nat.eqb y i then kr_h q x k l else 0) c)).
    2:{ intros c Hc. cbn [pda w_rates]. rewrite whist_X by exact Hk. fold q. fold x.
        destruct (hist_index _ c Hc) as [->|[->|[->|(y & l & Hy & Hl & ->)]]]; [cbn [whist]; rewrite ?mv_0; ring..|].
        rewrite !whist_X by exact Hl. unfold mm.
        replace (mv 6 (fun p q0 => - w_G w (s t) (a t) p q0) (kr_g q x k) l) with (rsum 6 (fun j => kr_g q x k j * - w_G w (s t) (a t) j l)); [ring|].
        unfold mv. apply rsum_ext. intros j Hj. rewrite !(w_G_eq w _ _ Hn), (dirm_sym _ l j). ring. }
    rewrite !dot_plus. change (dot (3 + 6 * w_nX w) (fun c : nat => whist ?A ?B ?C ?F c) va) with (dot (3 + 6 * w_nX w) (whist A B C F) va).
    rewrite (scal_row w Pa (s t) (a t) T va (kr_g q x k) (kr_a q x k) 0 (kr_D q x k) (kr_ad q x k) Hd).
    rewrite dot_whist, (delta_block w i (kr_h q x k) va Hi).
    rewrite dot_scal, (chain_gs w (s t) (a t) _ vs Hn Htd).
    unfold w_yv, w_gv. rewrite dot_addr. unfold x, q. ring.
Qed.
Lemma walker_exact w Pa PR PD PX : soft_exact Pa (w_soft w) ->
  srate_exact PR (sv_p (w_R w)) -> srate_exact PR (sv_t (w_R w)) ->
  srate_exact PD (sv_p (dv_var (w_D w))) -> srate_exact PD (sv_t (dv_var (w_D w))) ->
  (forall x, sr_D (sv_p (dv_var (w_D w))) x = 0 /\ sr_D (sv_t (dv_var (w_D w))) x = 0) ->
  (forall i, (i < w_nX w)%nat -> krate_exact (PX i) (kv_p (w_X w i)) /\ krate_exact (PX i) (kv_t (w_X w i))) ->
  vflow_exact (fun T s a => w_domain w Pa T s a /\ w_var_domain w PR PD PX T s a) (WalkerFlow w).
Proof.
  intros HS HR1 HR2 HD1 HD2 H0 HX. unfold vflow_exact. cbn [WalkerFlow vf_n vf_y vf_ys vf_ya vf_g vf_gt vf_gT vf_h vf_ht vf_hT].
  split; [|split; [|split; [|split; [|split; [|split]]]]].
  - intros T s a t vs va Hs Ha [Hd _]. apply (w_y_exact w Pa T HS s a t vs va Hs Ha Hd).
  - intros T s a t vs va Hs Ha [Hd _]. cbn [pv pds pda]. apply (w_g_path w s a t vs va Hs Ha). apply Hd.
  - apply zero_part_exact.
  - apply zero_part_exact.
  - apply w_rates_exact; try assumption; [intros x; apply H0|intros i Hi; apply HX, Hi].
  - apply w_rates_exact; try assumption; [intros x; apply H0|intros i Hi; apply HX, Hi].
  - apply zero_part_exact.
Qed.

From Verif Require Import Base.
From Verif Require Import Diff.
From Verif Require Import NemlMathModel NemlMathSpec NemlMathProofs SolverModel SolverSpec SolverProofs SubstepModel SurfModel SurfSpec SurfProofs HardProofs RiProofs.
From Verif Require Import PlastModel PlastSpec PlastProofs ViscoProofs YaguchiProofs CreepModel CreepSpec CreepProofs.

Lemma seq_mises s : seq s = mises s.
Proof. unfold seq, mises, norm2. rewrite sqrt_mult_alt by lra. reflexivity. Qed.
Lemma eeq_strain e : eeq e = strain_eq e.
Proof. unfold eeq, strain_eq, norm2. rewrite sqrt_mult_alt by lra. reflexivity. Qed.
Lemma s32_sq : sqrt (3 / 2) * sqrt (3 / 2) = 3 / 2. Proof. apply sqrt_sqrt. lra. Qed.
Lemma s32_pos : 0 < sqrt (3 / 2). Proof. apply sqrt_lt_R0. lra. Qed.
Lemma s23_sq : sqrt (2 / 3) * sqrt (2 / 3) = 2 / 3. Proof. apply sqrt_sqrt. lra. Qed.
Lemma s23_pos : 0 < sqrt (2 / 3). Proof. apply sqrt_lt_R0. lra. Qed.
Lemma seq_nonneg s : 0 <= seq s.
Proof. unfold seq. apply Rmult_le_pos; [apply sqrt_pos|apply sqrt_pos]. Qed.
Lemma norm_of_seq s : 0 < seq s -> 0 < norm2 6 (dev_vec s).
Proof. unfold seq. intros H. pose proof s32_pos. apply Rmult_lt_reg_l with (sqrt (3 / 2)); lra. Qed.
Lemma norm_of_eeq s : 0 < eeq s -> 0 < norm2 6 s.
Proof. unfold eeq. intros H. pose proof s23_pos. apply Rmult_lt_reg_l with (sqrt (2 / 3)); lra. Qed.
Lemma D_seq s u vs : path 6 s u vs -> 0 < seq (s u) -> is_derive (fun x => seq (s x)) u (3 / 2 * dot 6 (dev_vec (s u)) vs / seq (s u)).
Proof.
  intros H Hp. pose proof (norm_of_seq _ Hp) as Hn. unfold seq in *.
  eapply D_eq; [apply D_mult; [apply D_const|apply D_norm2; [apply dev_path, H|exact Hn]]|cbv beta].
  rewrite dot_dev_dev. pose proof s32_pos. pose proof s32_sq as Q. set (q := sqrt (3 / 2)) in *. rewrite <- Q. field. split; lra.
Qed.
Lemma D_eeq e u ve : path 6 e u ve -> 0 < eeq (e u) -> is_derive (fun x => eeq (e x)) u (2 / 3 * dot 6 (e u) ve / eeq (e u)).
Proof.
  intros H Hp. pose proof (norm_of_eeq _ Hp) as Hn. unfold eeq in *.
  eapply D_eq; [apply D_mult; [apply D_const|apply D_norm2; [exact H|exact Hn]]|cbv beta].
  pose proof s23_pos. pose proof s23_sq as Q. set (q := sqrt (2 / 3)) in *. rewrite <- Q. field. split; lra.
Qed.
Lemma seq_cont s u vs : path 6 s u vs -> eps < seq (s u) -> locally u (fun x => eps < seq (s x)).
Proof. intros H He. pose proof eps_pos. apply (loc_gt (fun x => seq (s x)) u _ eps (D_seq s u vs H ltac:(lra))). exact He. Qed.
Lemma eeq_loc_lt e u ve : path 6 e u ve -> eeq (e u) < eps -> locally u (fun x => eeq (e x) < eps).
Proof.
  (* eeq is continuous even where it is not differentiable: compare squares *)
  intros H He. pose proof eps_pos as Hp.
  assert (D : is_derive (fun x => 2 / 3 * dot 6 (e x) (e x)) u (2 / 3 * (dot 6 ve (e u) + dot 6 (e u) ve))).
  { eapply D_eq; [apply D_mult; [apply D_const|apply D_dot; exact H]|cbv beta; ring]. }
  assert (S : forall x, eeq (e x) * eeq (e x) = 2 / 3 * dot 6 (e x) (e x)).
  { intros x. rewrite eeq_strain. unfold strain_eq. apply sqrt_sqrt. apply Rmult_le_pos; [lra|]. unfold dot. apply rsum_nonneg. intros i Hi. nra. }
  assert (N : forall x, 0 <= eeq (e x)) by (intros x; rewrite eeq_strain; apply sqrt_pos).
  apply (filter_imp (fun x => 2 / 3 * dot 6 (e x) (e x) < eps * eps)).
  - intros x Hx. rewrite <- S in Hx. specialize (N x). nra.
  - apply (loc_lt (fun x => 2 / 3 * dot 6 (e x) (e x)) u _ (eps * eps) D). rewrite <- S. specialize (N u). nra.
Qed.
Lemma sdir_big s i : eps < seq s -> sdir s i = dev_vec s i / seq s.
Proof. intros H. unfold sdir. destruct (Rlt_dec (seq s) eps); [lra|reflexivity]. Qed.
Lemma edir_big e i : eps < eeq e -> edir e i = e i / eeq e.
Proof. intros H. unfold edir. destruct (Rlt_dec (eeq e) eps); [lra|reflexivity]. Qed.
Lemma edir_small e i : eeq e < eps -> edir e i = 0.
Proof. intros H. unfold edir. destruct (Rlt_dec (eeq e) eps); [reflexivity|lra]. Qed.
Lemma ID_dev v i : (i < 6)%nat -> mv 6 cr_ID v i = 3 / 2 * dev_vec v i.
Proof. intros Hi. unfold mv, cr_ID, dev_vec, delta. do 6 (destruct i as [|i]; [cbn; field|]); lia. Qed.
Lemma mv_scaled_id (k c : R) (d v : vec) i : (i < 6)%nat -> mv 6 (fun i j => d i * d j * c + delta i j * k) v i = d i * c * dot 6 d v + k * v i.
Proof.
  intros Hi. unfold mv. rewrite (rsum_ext 6 _ (fun j => d i * c * (d j * v j) + k * (delta i j * v j))) by (intros; ring).
  rewrite rsum_plus, !rsum_scal. unfold dot. f_equal. f_equal. apply (rsum_delta 6 i v Hi).
Qed.

(** what f_s applied to a stress rate is *)
Lemma j2_fs r s e t T v i : (i < 6)%nat -> eps < seq s ->
  let g := sc_g r (seq s) (eeq e) t T in let gs := sc_gs r (seq s) (eeq e) t T in let vse := 3 / 2 * dot 6 (dev_vec s) v / seq s in
  mv 6 (cr_fs (J2Creep r) s e t T) v i = 3 / 2 * (g * (dev_vec v i / seq s - dev_vec s i * vse / (seq s * seq s)) + dev_vec s i / seq s * (gs * vse)).
Proof.
  intros Hi Hs g gs vse. pose proof eps_pos. cbn [cr_fs J2Creep]. rewrite mv_mm, mv_scaled_id by exact Hi. rewrite ID_dev by exact Hi.
  rewrite (clamp_big _ Hs). fold g gs.
  assert (E : dot 6 (sdir s) (mv 6 cr_ID v) = vse).
  { unfold vse. rewrite <- (dot_dev_dev s v). unfold dot.
    rewrite (rsum_ext 6 _ (fun k => 3 / 2 / seq s * (dev_vec s k * dev_vec v k))).
    - rewrite rsum_scal. field. lra.
    - intros k Hk. rewrite sdir_big by exact Hs. rewrite ID_dev by exact Hk. field. lra. }
  rewrite E, sdir_big by exact Hs. field. lra.
Qed.
Lemma j2_fe r s e t T v i : mv 6 (cr_fe (J2Creep r) s e t T) v i = sdir s i * sc_ge r (seq s) (eeq e) t T * dot 6 (edir e) v.
Proof.
  cbn [cr_fe J2Creep]. unfold mv, dot. rewrite <- rsum_scal. apply rsum_ext. intros. ring.
Qed.
Lemma j2_f_loc r s e t T u vs i : path 6 s u vs -> eps < seq (s u) ->
  locally u (fun x => dev_vec (s x) i / seq (s x) * (3 / 2 * sc_g r (seq (s x)) (eeq (e x)) t T) = cr_f (J2Creep r) (s x) (e x) t T i).
Proof.
  intros Hp He. refine (filter_imp _ _ _ (seq_cont s u vs Hp He)). intros x Hx. cbn [cr_f J2Creep]. rewrite sdir_big by exact Hx. reflexivity.
Qed.
Lemma j2_creep_exact P r : srule_exact P r ->
  creep_exact (fun t T s e => eps < seq s /\ eps < eeq e /\ P (seq s) (eeq e) t T) (J2Creep r).
Proof.
  intros HR t T s e u vs ve Hs He (H1 & H2 & H3) i Hi. pose proof eps_pos. cbv beta in H1, H2, H3.
  pose proof (D_seq s u vs Hs ltac:(lra)) as DS. pose proof (D_eeq e u ve He ltac:(lra)) as DE.
  pose proof (HR t T (fun x => seq (s x)) (fun x => eeq (e x)) u _ _ DS DE H3) as DG. cbv beta in DG.
  pose proof (dev_path s u vs Hs i Hi) as DD. cbv beta in DD.
  apply (D_loc _ _ _ _ (j2_f_loc r s e t T u vs i Hs H1)).
  eapply D_eq. { apply D_mult; [apply D_div; [exact DD|exact DS|lra]|]. apply D_mult; [apply D_const|exact DG]. }
  cbv beta. unfold vadd. rewrite (j2_fs r (s u) (e u) t T vs i Hi H1), (j2_fe r (s u) (e u) t T ve i). rewrite sdir_big by exact H1.
  assert (E : dot 6 (edir (e u)) ve = dot 6 (e u) ve / eeq (e u)).
  { unfold dot. rewrite (rsum_ext 6 _ (fun k => / eeq (e u) * (e u k * ve k))); [rewrite rsum_scal; field; lra|]. intros k Hk. rewrite edir_big by exact H2. field. lra. }
  rewrite E. field. split; lra.
Qed.
Lemma j2_creep_exact_small P r : srule_s_exact P r -> flat_below_eps r ->
  creep_exact (fun t T s e => eps < seq s /\ eeq e < eps /\ P (seq s) (eeq e) t T) (J2Creep r).
Proof.
  intros HR HF t T s e u vs ve Hs He (H1 & H2 & H3) i Hi. pose proof eps_pos. cbv beta in H1, H2, H3.
  pose proof (D_seq s u vs Hs ltac:(lra)) as DS.
  pose proof (D_comp (fun x => sc_g r x (eeq (e u)) t T) (fun x => seq (s x)) u _ _ DS (HR _ _ _ _ H3)) as DG. cbv beta in DG.
  assert (DG2 : is_derive (fun x => sc_g r (seq (s x)) (eeq (e x)) t T) u (sc_gs r (seq (s u)) (eeq (e u)) t T * (3 / 2 * dot 6 (dev_vec (s u)) vs / seq (s u)))).
  { eapply D_eq; [apply (D_loc (fun x => sc_g r (seq (s x)) (eeq (e u)) t T)); [|exact DG]|cbv beta; ring].
    refine (filter_imp _ _ _ (eeq_loc_lt e u ve He H2)). intros x Hx. apply HF; assumption. }
  pose proof (dev_path s u vs Hs i Hi) as DD. cbv beta in DD.
  apply (D_loc _ _ _ _ (j2_f_loc r s e t T u vs i Hs H1)).
  eapply D_eq. { apply D_mult; [apply D_div; [exact DD|exact DS|lra]|]. apply D_mult; [apply D_const|exact DG2]. }
  cbv beta. unfold vadd. rewrite (j2_fs r (s u) (e u) t T vs i Hi H1), (j2_fe r (s u) (e u) t T ve i).
  assert (E : dot 6 (edir (e u)) ve = 0).
  { unfold dot. rewrite (rsum_ext 6 _ (fun k => 0)); [apply rsum_0|]. intros k Hk. rewrite edir_small by exact H2. ring. }
  rewrite E. field. lra.
Qed.

(** *** shape of the creep rate *)
Lemma j2_incompressible r s e t T : I1 (cr_f (J2Creep r) s e t T) = 0.
Proof.
  unfold I1. cbn [cr_f J2Creep]. unfold sdir. destruct (Rlt_dec (seq s) eps); [ring|]. pose proof (dev_traceless s) as H. unfold I1 in H.
  set (g := 3 / 2 * _). unfold Rdiv. set (q := / seq s).
  replace (dev_vec s 0%nat * q * g + dev_vec s 1%nat * q * g + dev_vec s 2%nat * q * g) with ((dev_vec s 0%nat + dev_vec s 1%nat + dev_vec s 2%nat) * (q * g)) by ring. rewrite H. ring.
Qed.
Lemma seq_sq s : seq s * seq s = 3 / 2 * dot 6 (dev_vec s) (dev_vec s).
Proof. rewrite seq_mises. unfold mises. apply sqrt_sqrt. apply Rmult_le_pos; [lra|]. unfold dot. apply rsum_nonneg. intros i Hi. nra. Qed.
Lemma j2_equivalent_rate r s e t T : eps <= seq s -> 0 <= sc_g r (seq s) (eeq e) t T ->
  strain_eq (cr_f (J2Creep r) s e t T) = sc_g r (seq s) (eeq e) t T.
Proof.
  intros H Hg. pose proof eps_pos. unfold strain_eq. set (g := sc_g r (seq s) (eeq e) t T) in *.
  replace (2 / 3 * dot 6 (cr_f (J2Creep r) s e t T) (cr_f (J2Creep r) s e t T)) with (g * g); [apply sqrt_square, Hg|].
  unfold dot. cbn [cr_f J2Creep]. fold g. rewrite (rsum_ext 6 _ (fun k => 9 / 4 * g * g / (seq s * seq s) * (dev_vec s k * dev_vec s k))).
  - rewrite rsum_scal. fold (dot 6 (dev_vec s) (dev_vec s)). pose proof (seq_sq s) as Q.
    replace (dot 6 (dev_vec s) (dev_vec s)) with (2 / 3 * (seq s * seq s)) by (rewrite Q; field). field. lra.
  - intros k Hk. unfold sdir. destruct (Rlt_dec (seq s) eps); [lra|]. field. lra.
Qed.
Lemma j2_power r s e t T : eps <= seq s -> dot 6 s (cr_f (J2Creep r) s e t T) = sc_g r (seq s) (eeq e) t T * seq s.
Proof.
  intros H. pose proof eps_pos. unfold dot. cbn [cr_f J2Creep]. set (g := sc_g r (seq s) (eeq e) t T) in *.
  rewrite (rsum_ext 6 _ (fun k => 3 / 2 * g / seq s * (dev_vec s k * s k))).
  - rewrite rsum_scal. fold (dot 6 (dev_vec s) s). rewrite dev_orth. pose proof (seq_sq s) as Q.
    replace (dot 6 (dev_vec s) (dev_vec s)) with (2 / 3 * (seq s * seq s)) by (rewrite Q; field). field. lra.
  - intros k Hk. unfold sdir. destruct (Rlt_dec (seq s) eps); [lra|]. field. lra.
Qed.
Lemma j2_below r s e t T i : seq s < eps -> cr_f (J2Creep r) s e t T i = 0.
Proof. intros H. cbn [cr_f J2Creep]. unfold sdir. destruct (Rlt_dec (seq s) eps); [ring|lra]. Qed.
Lemma j2_dissipation r s e t T : 0 <= sc_g r (seq s) (eeq e) t T -> 0 <= dot 6 s (cr_f (J2Creep r) s e t T).
Proof.
  intros Hg. destruct (Rlt_dec (seq s) eps) as [L|L].
  - unfold dot. rewrite (rsum_ext 6 _ (fun _ => 0)); [rewrite rsum_0; lra|]. intros k Hk. rewrite j2_below by exact L. ring.
  - rewrite j2_power by lra. apply Rmult_le_pos; [exact Hg|apply seq_nonneg].
Qed.
Definition uni (x : R) : vec := fun i => if Nat.eqb i 0 then x else 0.
Lemma seq_uni x : seq (uni x) = Rabs x.
Proof.
  rewrite seq_mises. unfold mises. replace (3 / 2 * dot 6 (dev_vec (uni x)) (dev_vec (uni x))) with (x * x).
  - rewrite <- sqrt_Rsqr_abs. reflexivity.
  - unfold dot, dev_vec, uni. cbn. field.
Qed.
Lemma j2_uniaxial_tension r x e t T : eps <= x ->
  let f := cr_f (J2Creep r) (uni x) e t T in let g := sc_g r x (eeq e) t T in
  f 0%nat = g /\ f 1%nat = - g / 2 /\ f 2%nat = - g / 2 /\ f 3%nat = 0 /\ f 4%nat = 0 /\ f 5%nat = 0.
Proof.
  intros H f g. pose proof eps_pos. assert (Q : seq (uni x) = x) by (rewrite seq_uni; apply Rabs_right; lra).
  unfold f. cbn [cr_f J2Creep]. rewrite Q. fold g. unfold sdir. rewrite Q. destruct (Rlt_dec x eps); [lra|].
  unfold dev_vec, uni. cbn. repeat split; field; lra.
Qed.
Lemma j2_uniaxial_compression r x e t T : eps <= x ->
  let f := cr_f (J2Creep r) (uni (- x)) e t T in let g := sc_g r x (eeq e) t T in
  f 0%nat = - g /\ f 1%nat = g / 2 /\ f 2%nat = g / 2 /\ f 3%nat = 0 /\ f 4%nat = 0 /\ f 5%nat = 0.
Proof.
  intros H f g. pose proof eps_pos. assert (Q : seq (uni (- x)) = x) by (rewrite seq_uni, Rabs_Ropp; apply Rabs_right; lra).
  unfold f. cbn [cr_f J2Creep]. rewrite Q. fold g. unfold sdir. rewrite Q. destruct (Rlt_dec x eps); [lra|].
  unfold dev_vec, uni. cbn. repeat split; field; lra.
Qed.
(** superposed pressure *)
Definition add_pressure (p : R) (s : vec) : vec := fun i => if Nat.ltb i 3 then s i + p else s i.
Lemma dev_pressure p s i : dev_vec (add_pressure p s) i = dev_vec s i.
Proof. unfold dev_vec, add_pressure. destruct (Nat.ltb i 3); [cbn; field|reflexivity]. Qed.
Lemma seq_pressure p s : seq (add_pressure p s) = seq s.
Proof. unfold seq, norm2, dot. do 2 f_equal. apply rsum_ext. intros k Hk. rewrite !dev_pressure. reflexivity. Qed.
Lemma j2_pressure r p s e t T i : cr_f (J2Creep r) (add_pressure p s) e t T i = cr_f (J2Creep r) s e t T i.
Proof. cbn [cr_f J2Creep]. unfold sdir. rewrite !seq_pressure, dev_pressure. reflexivity. Qed.

(** *** CreepModel::update *)
Lemma newton_sound n init RJ lsolve prm x r J c : (1 <= miter prm)%Z -> newton (vec_sys n init RJ lsolve) prm = Ok (x, (r, J), c) ->
  RJ x = Some (r, J) /\ exists r0 J0, RJ init = Some (r0, J0) /\ within_tolerance prm n r r0.
Proof.
  intros Hm N. destruct (proj1 (@newton_iff _ _ _ _ prm x (r, J) Hm) (ex_intro _ c N)) as (k & [r0 J0] & _ & Hr & Hc).
  split; [exact (@reached_RJ _ _ _ _ _ _ _ _ _ Hr)|]. exists r0, J0. split.
  - clear - Hr. remember (r0, J0) as d0. induction Hr; [subst; assumption|]. auto.
  - destruct Hc as (q & Eq & Hc). cbn in Eq. injection Eq as <-. destruct Hc as [Hc|(q0 & E0 & Hn & Hc)]; [left; exact Hc|].
    cbn in E0. injection E0 as <-. right. split; assumption.
Qed.
Lemma cr_update_eq lsolve inv prm M s en T1 T0 t1 t0 x A : (1 <= miter prm)%Z ->
  cr_update lsolve inv prm M s en T1 T0 t1 t0 = Some (x, A) ->
  exists r r0, within_tolerance prm 6 r r0 /\ (forall i, r0 i = - (t1 - t0) * cr_f M s en t1 T1 i) /\
    (forall i, x i = en i + (t1 - t0) * cr_f M s x t1 T1 i + r i) /\
    exists J K, (forall i j, J i j = delta i j - (t1 - t0) * cr_fe M s x t1 T1 i j) /\ inv 6%nat J = Some K /\
      forall i j, A i j = (t1 - t0) * mm 6 K (cr_fs M s x t1 T1) i j.
Proof.
  intros Hm H. unfold cr_update, cr_solve in H. destruct (newton _ prm) as [[[y [r J]] c]|] eqn:N; [|discriminate].
  destruct (cr_tangent inv M s T1 t1 (t1 - t0) y) as [A'|] eqn:HT; [|discriminate]. injection H as <- <-.
  destruct (newton_sound _ _ _ _ _ _ _ _ _ Hm N) as (E & r0 & J0 & E0 & W). injection E as E1 E2. injection E0 as E01 E02.
  exists r, r0. split; [exact W|]. split; [intros i; rewrite <- E01; unfold cr_R; ring|]. split; [intros i; rewrite <- E1; unfold cr_R; ring|].
  unfold cr_tangent in HT. destruct (inv 6%nat (cr_J M s T1 t1 (t1 - t0) y)) as [K|] eqn:HI; [|discriminate]. injection HT as <-.
  exists (cr_J M s T1 t1 (t1 - t0) y), K. split; [intros i j; unfold cr_J; ring|]. split; [exact HI|].
  - intros i j. unfold mm. rewrite <- rsum_scal. apply rsum_ext. intros. ring.
Qed.
Lemma cr_jac P M s en T t dt : creep_exact P M -> is_jac 6 6 (fun x => P t T s x) (cr_R M s en T t dt) (cr_J M s T t dt).
Proof.
  intros HE x u vx Hx HP i Hi.
  pose proof (HE t T (fun _ => s) x u vzero vx (path_const 6 s u) Hx HP i Hi) as D. cbv beta in D.
  unfold cr_R. eapply D_eq; [apply D_minus; [apply D_minus; [apply (Hx i Hi)|apply D_const]|apply D_mult; [exact D|apply D_const]]|cbv beta].
  unfold cr_J. unfold vadd, mv. rewrite (rsum_ext 6 (fun j => cr_fs M s (x u) t T i j * vzero j) (fun _ => 0)) by (intros; unfold vzero; ring).
  rewrite rsum_0. rewrite (rsum_ext 6 (fun j => (- cr_fe M s (x u) t T i j * dt + delta i j) * vx j) (fun j => - dt * (cr_fe M s (x u) t T i j * vx j) + delta i j * vx j)) by (intros; ring).
  rewrite rsum_plus, rsum_scal, (rsum_delta 6 i vx Hi). ring.
Qed.
(** along any curve of stresses, the exact solutions move with the reported tangent *)
Lemma cr_tangent_exact P lsolve inv prm M s1 en T1 T0 t1 t0 x1 A : creep_exact P M -> inv_ok inv -> (1 <= miter prm)%Z ->
  cr_update lsolve inv prm M s1 en T1 T0 t1 t0 = Some (x1, A) ->
  forall (s x : R -> vec) (c : vec) u vs vx, path 6 s u vs -> path 6 x u vx -> s u = s1 -> x u = x1 -> P t1 T1 s1 x1 ->
    locally u (fun w => forall i, (i < 6)%nat -> x w i - en i - (t1 - t0) * cr_f M (s w) (x w) t1 T1 i = c i) ->
    veq 6 vx (mv 6 A vs).
Proof.
  intros HE HI Hm H s x c u vs vx Hs Hx Es Ex HP HL.
  destruct (cr_update_eq _ _ _ _ _ _ _ _ _ _ _ _ Hm H) as (r & r0 & _ & _ & _ & J & K & HJ & HK & HA). destruct (HI _ _ _ HK) as [HK1 _].
  set (dt := t1 - t0) in *.
  assert (D : path 6 (fun w i => x w i - en i - dt * cr_f M (s w) (x w) t1 T1 i) u
              (fun i => vx i - dt * (mv 6 (cr_fs M s1 x1 t1 T1) vs i + mv 6 (cr_fe M s1 x1 t1 T1) vx i))).
  { intros i Hi. rewrite <- Es, <- Ex in HP. pose proof (HE t1 T1 s x u vs vx Hs Hx HP i Hi) as D. cbv beta in D.
    eapply D_eq; [apply D_minus; [apply D_minus; [apply (Hx i Hi)|apply D_const]|apply D_mult; [apply D_const|exact D]]|cbv beta]. rewrite Es, Ex. unfold vadd. ring. }
  assert (Z : forall i, (i < 6)%nat -> vx i - dt * (mv 6 (cr_fs M s1 x1 t1 T1) vs i + mv 6 (cr_fe M s1 x1 t1 T1) vx i) = 0).
  { intros i Hi. specialize (D i Hi). cbv beta in D. assert (D0 : is_derive (fun w => x w i - en i - dt * cr_f M (s w) (x w) t1 T1 i) u 0).
    { apply (D_loc (fun _ => c i)); [|apply D_const]. refine (filter_imp _ _ _ HL). intros w Hw. symmetry. apply Hw, Hi. }
    pose proof (is_derive_unique _ _ _ D) as U1. pose proof (is_derive_unique _ _ _ D0) as U2. rewrite <- U1. exact U2. }
  intros i Hi.
  assert (E : veq 6 (mv 6 J vx) (fun i => dt * mv 6 (cr_fs M s1 x1 t1 T1) vs i)).
  { intros k Hk. specialize (Z k Hk). unfold mv at 1. rewrite (rsum_ext 6 _ (fun j => delta k j * vx j + - dt * (cr_fe M s1 x1 t1 T1 k j * vx j))) by (intros; rewrite HJ; ring).
    rewrite rsum_plus, rsum_scal, (rsum_delta 6 k vx Hk). fold (mv 6 (cr_fe M s1 x1 t1 T1) vx k). lra. }
  transitivity (mv 6 K (mv 6 J vx) i).
  - rewrite <- (mv_mm 6 6 K J vx i). unfold mv at 1. rewrite (rsum_ext 6 _ (fun j => delta i j * vx j)) by (intros j Hj; rewrite (HK1 i j Hi Hj); reflexivity). rewrite (rsum_delta 6 i vx Hi). reflexivity.
  - rewrite (mv_vec_ext 6 K _ _ i E). transitivity (rsum 6 (fun j => A i j * vs j)); [|reflexivity]. rewrite (rsum_ext 6 (fun j => A i j * vs j) (fun j => mm 6 K (cr_fs M s1 x1 t1 T1) i j * (dt * vs j))).
    2:{ intros j Hj. rewrite HA. ring. }
    change (rsum 6 (fun j => mm 6 K (cr_fs M s1 x1 t1 T1) i j * (dt * vs j))) with (mv 6 (mm 6 K (cr_fs M s1 x1 t1 T1)) (fun j => dt * vs j) i).
    rewrite mv_mm. apply (mv_vec_ext 6 K). intros k Hk. unfold mv. rewrite <- rsum_scal. apply rsum_ext. intros; ring.
Qed.

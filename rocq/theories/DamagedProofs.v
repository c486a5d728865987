From Verif Require Import Base.
From Verif Require Import Diff.
From Verif Require Import NemlMathModel NemlMathSpec NemlMathProofs SolverModel SolverSpec SolverProofs SubstepModel SurfModel SurfSpec SurfProofs HardProofs RiProofs.
From Verif Require Import PlastModel PlastSpec PlastProofs ViscoProofs YaguchiProofs CreepModel CreepSpec CreepProofs J2CreepProofs CreepPlastProofs DamageModel DamageSpec DamageProofs.

Lemma killed_true k w : removed k w -> andb (kd_ekill k) (if Rle_dec (kd_dkill k) w then true else false) = true.
Proof. intros [H1 H2]. rewrite H1. destruct (Rle_dec _ w); [reflexivity|contradiction]. Qed.
Lemma killed_false k w : ~ removed k w -> andb (kd_ekill k) (if Rle_dec (kd_dkill k) w then true else false) = false.
Proof. intros H. destruct (kd_ekill k) eqn:E; [|reflexivity]. destruct (Rle_dec _ w) as [L|L]; [|reflexivity]. exfalso. apply H. split; assumption. Qed.
Lemma removed_dec k w : {removed k w} + {~ removed k w}.
Proof. unfold removed. destruct (kd_ekill k); [|right; intros [H _]; discriminate]. destruct (Rle_dec (kd_dkill k) w); [left; auto|right; intros [_ H]; contradiction]. Qed.

(** *** the solved equations *)
Lemma dmg_eqs lsolve inv prm k C B D next past sn hn un pn res : (1 <= miter prm)%Z -> ~ removed k (hn 0%nat) ->
  dmg_update lsolve inv prm k C B D next past sn hn un pn = Some res ->
  exists x rb r r0, let w := x 6%nat in
    ba_update B next past (fun i => sn i / (1 - hn 0%nat)) (fun i => hn (S i)) un pn = Some rb /\
    within_tolerance prm 7 r r0 /\
    (forall i, (i < 6)%nat -> x i = (1 - w) * pr_s rb i + r i) /\
    w = dm D (dargs_of next past w (hn 0%nat) (fun i => x i / (1 - w)) (fun i => sn i / (1 - hn 0%nat))) + r 6%nat /\
    (removed k w -> res = ekill_update C (kd_sfact k) next hn un pn) /\
    (~ removed k w -> (forall i, pr_s res i = (1 - w) * pr_s rb i) /\ pr_h res 0%nat = w /\ (forall i, pr_h res (S i) = pr_h rb i) /\
       pr_u res = pr_u rb /\ pr_p res = pr_p rb /\
       dmg_tangent inv D (dargs_of next past w (hn 0%nat) (fun i => (1 - w) * pr_s rb i / (1 - w)) (fun i => sn i / (1 - hn 0%nat))) (pr_A rb) = Some (pr_A res)).
Proof.
  intros Hm HN H. unfold dmg_update in H. rewrite (killed_false _ _ HN) in H.
  destruct (newton _ prm) as [[[x [r J]] c]|] eqn:N; [|discriminate].
  destruct (newton_sound _ _ _ _ _ _ _ _ _ Hm N) as (E & r0 & J0 & E0 & W). unfold dmg_RJ in E.
  destruct (ba_update B next past (eff_s sn (hn 0%nat)) (fun i => hn (S i)) un pn) as [rb|] eqn:Eb; [|discriminate].
  injection E as E EJ. exists x, rb, r, r0. cbv zeta. split; [exact Eb|]. split; [exact W|].
  split. { intros i Hi. rewrite <- E. apply Nat.ltb_lt in Hi. rewrite Hi. ring. }
  split. { rewrite <- E. cbn [Nat.ltb Nat.leb]. unfold eff_s. ring. }
  split.
  - intros HR. rewrite (killed_true _ _ HR) in H. injection H as <-. reflexivity.
  - intros HR. rewrite (killed_false _ _ HR) in H. unfold eff_s in H.
    destruct (dmg_tangent inv D _ (pr_A rb)) as [A|] eqn:EA; [|discriminate]. injection H as <-. cbn [pr_s pr_h pr_A pr_u pr_p]. repeat split; auto.
Qed.

(** *** the Jacobian *)
Lemma rsum_1 f : rsum 1 f = f 0%nat. Proof. cbn. ring. Qed.
Lemma dmg_jac P B D next past sn hn un pn (x : R -> vec) (RJ : R -> vec * mat) u vx : damage_exact P D ->
  path 7 x u vx -> x u 6%nat <> 1 -> P (dargs_of next past (x u 6%nat) (hn 0%nat) (eff_s (x u) (x u 6%nat)) (eff_s sn (hn 0%nat))) ->
  (forall y, dmg_RJ B D next past sn hn un pn (x y) = Some (RJ y)) ->
  path 7 (fun y => fst (RJ y)) u (mv 7 (snd (RJ u)) vx).
Proof.
  intros HD Hx Hw HP HR. unfold dmg_RJ in HR.
  destruct (ba_update B next past (eff_s sn (hn 0%nat)) (fun i => hn (S i)) un pn) as [rb|] eqn:Eb; [|specialize (HR u); discriminate].
  assert (X : forall y i, fst (RJ y) i = if Nat.ltb i 6 then x y i - (1 - x y 6%nat) * pr_s rb i else x y 6%nat - dm D (dargs_of next past (x y 6%nat) (hn 0%nat) (eff_s (x y) (x y 6%nat)) (eff_s sn (hn 0%nat)))).
  { intros y i. specialize (HR y). injection HR as HR. rewrite <- HR. reflexivity. }
  pose (a := dargs_of next past (x u 6%nat) (hn 0%nat) (eff_s (x u) (x u 6%nat)) (eff_s sn (hn 0%nat))).
  assert (XJ : forall i j, snd (RJ u) i j = if Nat.ltb i 6 then (if Nat.eqb j 6 then pr_s rb i else delta i j)
       else (if Nat.eqb j 6 then 1 - dm_d D a - dot 6 (dm_s D a) (x u) / ((1 - x u 6%nat) * (1 - x u 6%nat)) else - dm_s D a j / (1 - x u 6%nat))).
  { intros i j. specialize (HR u). injection HR as HR. rewrite <- HR. reflexivity. }
  pose proof (Hx 6%nat ltac:(lia)) as D6.
  intros i Hi. apply (D_ext (fun y => if Nat.ltb i 6 then x y i - (1 - x y 6%nat) * pr_s rb i else x y 6%nat - dm D (dargs_of next past (x y 6%nat) (hn 0%nat) (eff_s (x y) (x y 6%nat)) (eff_s sn (hn 0%nat))))); [intros y; symmetry; apply X|].
  destruct (Nat.ltb_spec i 6) as [L|L].
  - eapply D_eq; [apply D_minus; [apply (Hx i Hi)|apply D_mult; [apply D_minus; [apply D_const|exact D6]|apply D_const]]|cbv beta].
    unfold mv. change 7%nat with (6 + 1)%nat. rewrite rsum_app. rewrite (rsum_ext 6 _ (fun j => delta i j * vx j)).
    + rewrite (rsum_delta 6 i vx L), rsum_1. rewrite XJ. apply Nat.ltb_lt in L. rewrite L. cbn [Nat.add Nat.eqb]. ring.
    + intros j Hj. rewrite XJ. apply Nat.ltb_lt in L. rewrite L. destruct (Nat.eqb_spec j 6); [lia|reflexivity].
  - assert (Ei : i = 6%nat) by lia. subst i. clear L Hi.
    assert (Ps : path 6 (fun y => eff_s (x y) (x y 6%nat)) u (fun j => vx j / (1 - x u 6%nat) + x u j * vx 6%nat / ((1 - x u 6%nat) * (1 - x u 6%nat)))).
    { intros j Hj. unfold eff_s. eapply D_eq; [apply D_div; [apply (Hx j); lia|apply D_minus; [apply D_const|exact D6]|lra]|cbv beta; field; lra]. }
    pose proof (HD (dargs_of next past 0 (hn 0%nat) vzero (eff_s sn (hn 0%nat))) (fun y => x y 6%nat) (fun _ => ld_e next) (fun y => eff_s (x y) (x y 6%nat)) u (vx 6%nat) (fun _ => 0) _
       D6 ltac:(intros j Hj; apply D_const) Ps HP) as DD.
    assert (DD' : is_derive (fun y => dm D (dargs_of next past (x y 6%nat) (hn 0%nat) (eff_s (x y) (x y 6%nat)) (eff_s sn (hn 0%nat)))) u
       (dm_d D a * vx 6%nat + dot 6 (dm_e D a) (fun _ => 0) + dot 6 (dm_s D a) (fun j => vx j / (1 - x u 6%nat) + x u j * vx 6%nat / ((1 - x u 6%nat) * (1 - x u 6%nat))))) by exact DD.
    eapply D_eq; [apply D_minus; [exact D6|exact DD']|].
    unfold mv. change 7%nat with (6 + 1)%nat. rewrite rsum_app. rewrite (rsum_ext 6 _ (fun j => - / (1 - x u 6%nat) * (dm_s D a j * vx j))).
    + rewrite rsum_scal, rsum_1. cbn [Nat.add]. rewrite XJ. cbn [Nat.add Nat.ltb Nat.leb Nat.eqb].
      replace (dot 6 (dm_e D a) (fun _ => 0)) with 0 by (unfold dot; rewrite (rsum_ext 6 _ (fun _ => 0)) by (intros; ring); symmetry; apply rsum_0).
      replace (dot 6 (dm_s D a) (fun j => vx j / (1 - x u 6%nat) + x u j * vx 6%nat / ((1 - x u 6%nat) * (1 - x u 6%nat))))
        with (/ (1 - x u 6%nat) * rsum 6 (fun j => dm_s D a j * vx j) + vx 6%nat / ((1 - x u 6%nat) * (1 - x u 6%nat)) * dot 6 (dm_s D a) (x u)).
      * field. lra.
      * unfold dot. rewrite <- !rsum_scal, <- rsum_plus. apply rsum_ext. intros j Hj. field. lra.
    + intros j Hj. rewrite XJ. cbn [Nat.ltb Nat.leb]. destruct (Nat.eqb_spec j 6); [lia|]. field. lra.
Qed.

(** *** the tangent *)
Lemma mv_outer (p q v : vec) i : mv 6 (fun i j => p i * q j) v i = p i * dot 6 q v.
Proof. unfold mv, dot. rewrite <- rsum_scal. apply rsum_ext. intros; ring. Qed.
Lemma dmg_tangent_solves inv D a Ap A : inv_ok inv -> dmg_tangent inv D a Ap = Some A ->
  ad a <> 1 -> let k1 := 1 - 1 / (1 - ad a) * dot 6 (dm_s D a) (as_ a) - dm_d D a in k1 <> 0 ->
  forall vs ve vw, (forall i, (i < 6)%nat -> vs i = (1 - ad a) * mv 6 Ap ve i - as_ a i * vw) ->
    k1 * vw = dot 6 (dm_e D a) ve + dot 6 (dm_s D a) vs / (1 - ad a) -> veq 6 vs (mv 6 A ve).
Proof.
  intros HI H Hw k1 Hk vs ve vw Hvs Hvw. unfold dmg_tangent in H. fold k1 in H. destruct (inv 6%nat _) as [K|] eqn:EK; [|discriminate]. injection H as <-.
  destruct (HI _ _ _ EK) as [HK _]. set (M := fun i j => delta i j + as_ a i * (dm_s D a j / (k1 * (1 - ad a)))) in *.
  assert (Hvw' : vw = (dot 6 (dm_e D a) ve + dot 6 (dm_s D a) vs / (1 - ad a)) / k1) by (rewrite <- Hvw; field; exact Hk).
  assert (E1 : veq 6 (mv 6 M vs) (mv 6 (fun i j => Ap i j * (1 - ad a) - as_ a i * (dm_e D a j / k1)) ve)).
  { intros i Hi. transitivity (vs i + as_ a i * (dot 6 (dm_s D a) vs / (k1 * (1 - ad a)))).
    - unfold M, mv, dot. rewrite (rsum_ext 6 _ (fun j => delta i j * vs j + as_ a i / (k1 * (1 - ad a)) * (dm_s D a j * vs j))) by (intros j Hj; field; split; lra).
      rewrite rsum_plus, rsum_scal, (rsum_delta 6 i vs Hi). field. split; lra.
    - transitivity ((1 - ad a) * mv 6 Ap ve i - as_ a i / k1 * dot 6 (dm_e D a) ve).
      + rewrite (Hvs i Hi), Hvw'. field. split; lra.
      + unfold mv, dot. rewrite <- !rsum_scal, <- rsum_minus. apply rsum_ext. intros j Hj. field. exact Hk. }
  intros i Hi. rewrite mv_mm. rewrite <- (mv_vec_ext 6 K _ _ i E1). rewrite <- (mv_mm 6 6 K M vs i). unfold mv.
  rewrite (rsum_ext 6 _ (fun j => delta i j * vs j)) by (intros j Hj; rewrite (HK i j Hi Hj); reflexivity). symmetry. apply (rsum_delta 6 i vs Hi).
Qed.
Lemma dmg_tangent_exact P inv B D next past sn hn A (e : R -> vec) (w : R -> R) (rb : R -> pres) c u ve vw :
  damage_exact P D -> inv_ok inv ->
  let s x := fun i => (1 - w x) * pr_s (rb x) i in
  let a x := dargs_of (with_e (e x) next) past (w x) (hn 0%nat) (fun i => s x i / (1 - w x)) (fun i => sn i / (1 - hn 0%nat)) in
  dmg_tangent inv D (a u) (pr_A (rb u)) = Some A ->
  path 6 e u ve -> is_derive w u vw -> w u <> 1 -> P (a u) ->
  1 - 1 / (1 - w u) * dot 6 (dm_s D (a u)) (as_ (a u)) - dm_d D (a u) <> 0 ->
  base_tangent_at B next past (fun i => sn i / (1 - hn 0%nat)) (fun i => hn (S i)) (e u) ->
  locally u (fun x => ba_update B (with_e (e x) next) past (fun i => sn i / (1 - hn 0%nat)) (fun i => hn (S i)) 0 0 = Some (rb x)) ->
  locally u (fun x => w x - dm D (a x) = c) ->
  path 6 s u (mv 6 A ve).
Proof.
  intros HD HI s a HT He Hw Hw1 HP Hk TB LB LC.
  pose proof (TB e rb u ve eq_refl He LB) as PB.
  pose (vs := fun i => (1 - w u) * mv 6 (pr_A (rb u)) ve i - pr_s (rb u) i * vw).
  assert (Ps : path 6 s u vs).
  { intros i Hi. unfold s, vs. eapply D_eq; [apply D_mult; [apply D_minus; [apply D_const|exact Hw]|apply (PB i Hi)]|cbv beta; ring]. }
  assert (Pe : path 6 (fun x i => s x i / (1 - w x)) u (fun i => vs i / (1 - w u) + s u i * vw / ((1 - w u) * (1 - w u)))).
  { intros i Hi. eapply D_eq; [apply D_div; [apply (Ps i Hi)|apply D_minus; [apply D_const|exact Hw]|lra]|cbv beta; field; lra]. }
  pose proof (HD (a u) w e (fun x i => s x i / (1 - w x)) u vw ve _ Hw He Pe HP) as DD. cbv zeta in DD.
  assert (DD' : is_derive (fun x => dm D (a x)) u (dm_d D (a u) * vw + dot 6 (dm_e D (a u)) ve + dot 6 (dm_s D (a u)) (fun i => vs i / (1 - w u) + s u i * vw / ((1 - w u) * (1 - w u))))) by exact DD.
  pose proof (D_minus _ _ _ _ _ Hw DD') as D1.
  assert (D0 : is_derive (fun x => w x - dm D (a x)) u 0).
  { apply (D_loc (fun _ => c)); [|apply D_const]. refine (filter_imp _ _ _ LC). intros x Hx. symmetry. exact Hx. }
  pose proof (is_derive_unique _ _ _ D1) as U1. pose proof (is_derive_unique _ _ _ D0) as U2. pose proof (eq_trans (eq_sym U1) U2) as U.
  assert (EU : dot 6 (dm_s D (a u)) (fun i => vs i / (1 - w u) + s u i * vw / ((1 - w u) * (1 - w u)))
     = dot 6 (dm_s D (a u)) vs / (1 - w u) + vw / (1 - w u) * dot 6 (dm_s D (a u)) (as_ (a u))).
  { unfold dot. unfold Rdiv at 3. rewrite <- rsum_scal_r, <- rsum_scal, <- rsum_plus. apply rsum_ext. intros i Hi. change (as_ (a u) i) with (s u i / (1 - w u)). field. lra. }
  rewrite EU in U.
  assert (G : veq 6 vs (mv 6 A ve)).
  { apply (dmg_tangent_solves inv D (a u) (pr_A (rb u)) A HI HT Hw1 Hk vs ve vw).
    - intros i Hi. unfold vs. change (as_ (a u) i) with (s u i / (1 - w u)). change (ad (a u)) with (w u). unfold s. field. lra.
    - change (ad (a u)) with (w u). change (ad (a u)) with (w u) in Hk. cbv zeta in *. lra. }
  intros i Hi. rewrite <- (G i Hi). apply (Ps i Hi).
Qed.

(** *** removal *)
Lemma ekill_dead C sf next hn un pn : dead C sf hn next (ekill_update C sf next hn un pn).
Proof.
  unfold dead, ekill_update. cbn [pr_s pr_h pr_A]. split; [reflexivity|]. split; [reflexivity|]. split; [reflexivity|].
  intros i Hi. unfold mv. unfold Rdiv at 2. rewrite <- rsum_scal_r. apply rsum_ext. intros; unfold Rdiv; ring.
Qed.
Lemma dead_step lsolve inv prm k C B D next past sn hn un pn : removed k (hn 0%nat) ->
  dmg_update lsolve inv prm k C B D next past sn hn un pn = Some (ekill_update C (kd_sfact k) next hn un pn).
Proof. intros H. unfold dmg_update. rewrite (killed_true _ _ H). reflexivity. Qed.
Lemma dead_forever lsolve inv prm k C B D : kd_dkill k <= 1 -> forall l past sn hn un pn, removed k (hn 0%nat) ->
  exists rs, drun (dmg_update lsolve inv prm k C B D) past sn hn un pn l = Some rs /\
    length rs = length l /\
    forall i n r, nth_error l i = Some n -> nth_error rs i = Some r ->
      dead C (kd_sfact k) hn n r /\ pr_u r = Rmin un 0 /\ pr_p r = pn + Rmax un 0.
Proof.
  intros Hk l. induction l as [|n l IH]; intros past sn hn un pn HR.
  - exists []. split; [reflexivity|]. split; [reflexivity|]. intros [|i] n r H; discriminate.
  - cbn [drun]. rewrite (dead_step lsolve inv prm k C B D n past sn hn un pn HR). pose (x := ekill_update C (kd_sfact k) n hn un pn). fold x.
    pose proof (ekill_dead C (kd_sfact k) n hn un pn) as HD. fold x in HD.
    assert (HR' : removed k (pr_h x 0%nat)) by (destruct HD as (-> & _); split; [apply HR|exact Hk]).
    destruct (IH n (pr_s x) (pr_h x) (pr_u x) (pr_p x) HR') as (rs & E & Hl & Hrs). rewrite E. exists (x :: rs). split; [reflexivity|]. split; [cbn; rewrite Hl; reflexivity|].
    assert (HU : pr_u x = Rmin un 0 /\ pr_p x = pn + Rmax un 0).
    { unfold x, ekill_update. cbn [pr_u pr_p]. destruct (Rlt_dec 0 un); [rewrite Rmin_right, Rmax_left by lra|rewrite Rmin_left, Rmax_right by lra]; split; ring. }
    intros [|i] m r H1 H2.
    + injection H1 as <-. injection H2 as <-. split; [exact HD|exact HU].
    + destruct (Hrs i m r H1 H2) as ((D1 & D2 & D3 & D4) & U1 & U2). destruct HU as [-> ->] in U1, U2.
      assert (Rmin (Rmin un 0) 0 = Rmin un 0) as M1 by (apply Rmin_left, Rmin_r). assert (Rmax (Rmin un 0) 0 = 0) as M2 by (apply Rmax_right, Rmin_r).
      rewrite M1 in U1. rewrite M2, Rplus_0_r in U2. split; [|split; [exact U1|exact U2]].
      split; [exact D1|]. split; [|split; [exact D3|exact D4]]. intros j. rewrite D2. apply HD.
Qed.
Lemma dead_energy C sf next hn un pn : let r := ekill_update C sf next hn un pn in pr_u r + pr_p r = un + pn /\ pn <= pr_p r.
Proof. unfold ekill_update. cbn [pr_u pr_p]. destruct (Rlt_dec 0 un); split; lra. Qed.
(** the deletion flag *)
Lemma del_flag C sf k next hn un pn : dmg_del k (pr_h (ekill_update C sf next hn un pn)) = true <-> kd_dkill k < 1.
Proof. unfold dmg_del, dmg_get, ekill_update. cbn [pr_h Nat.eqb]. destruct (Rlt_dec (kd_dkill k) 1); split; intros; try assumption; try reflexivity; [discriminate|contradiction]. Qed.
Lemma not_dead_above_one C sf k next hn un pn : 1 < kd_dkill k -> ~ removed k (pr_h (ekill_update C sf next hn un pn) 0%nat).
Proof. intros H [_ L]. unfold ekill_update in L. cbn [pr_h Nat.eqb] in L. lra. Qed.

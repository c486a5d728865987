From Verif Require Import Base Diff.
From Verif Require Import SolverModel SubstepModel CreepModel NlModel NlSpec NlProofs UniModel UniSpec.
From Verif Require Import RiProofs WalkerProofs.
From Coq Require Import ZArith FunctionalExtensionality.

Lemma transverse_norm s : transverse s = norm2 5 (vtl s).
Proof. unfold transverse, norm2, dot, vtl. cbn [rsum]. f_equal. ring. Qed.
Lemma es2ev_strain e x : strain_of e x (es2ev e x).
Proof.
  split; [reflexivity|]. intros i Hi. unfold es2ev. destruct (Nat.eqb_spec i 0); [lia|]. destruct (Nat.ltb_spec i 6); [reflexivity|lia].
Qed.
Lemma es2ev_ext e x y : (forall i, (i < 5)%nat -> x i = y i) -> es2ev e x = es2ev e y.
Proof.
  intros H. apply functional_extensionality. intros i. unfold es2ev. destruct (Nat.eqb_spec i 0); [reflexivity|]. destruct (Nat.ltb_spec i 6); [apply H; lia|reflexivity].
Qed.

Lemma uni_parts solve M rt at_ miter e1 e0 T1 T0 t1 t0 s0 h0 u0 p0 q :
  uni_update solve M rt at_ miter e1 e0 T1 T0 t1 t0 s0 h0 u0 p0 = Ret q ->
  exists r rg sv, let E := es2ev e1 (ur_h q) in
    upd M E (es2ev e0 h0) T1 T0 t1 t0 (ss2sv s0) (fun i => h0 (5 + i)%nat) u0 p0 = Some r /\
    upd M (es2ev e1 h0) (es2ev e0 h0) T1 T0 t1 t0 (ss2sv s0) (fun i => h0 (5 + i)%nat) u0 p0 = Some rg /\
    (transverse (pr_s r) <= rt * transverse (pr_s rg) \/ transverse (pr_s r) <= at_) /\
    ur_s q = pr_s r 0%nat /\ (forall i, ur_h q (5 + i)%nat = pr_h r i) /\ ur_u q = pr_u r /\ ur_p q = pr_p r /\
    solve 5%nat (A22 (pr_A r)) (A21 (pr_A r)) = Some sv /\ ur_A q = pr_A r 0%nat 0%nat - dot 5 (A12 (pr_A r)) sv.
Proof.
  unfold uni_update. destruct (py_newton _ _ _ _ _ _ _) as [[[ef d] i]|] eqn:EN; [|discriminate].
  destruct (upd M (es2ev e1 ef) _ _ _ _ _ _ _ _ _) as [r|] eqn:ER; [|discriminate]. destruct (solve 5%nat _ _) as [sv|] eqn:ES; [|discriminate].
  intros H. injection H as <-. apply run_converged in EN; [|intros x d' _; eexists; reflexivity].
  destruct EN as (d0 & E0 & E1 & (a & b & Na & Nb & C) & _). cbn [uni_sys vec_sys sys_RJ sys_init sys_norm] in E0, E1, Na, Nb. rewrite ER in E1. injection E1 as <-.
  destruct (upd M (es2ev e1 h0) _ _ _ _ _ _ _ _ _) as [rg|] eqn:EG; [|discriminate]. injection E0 as <-. injection Na as <-. injection Nb as <-. cbn [fst] in C.
  exists r, rg, sv. cbv zeta. cbn [ur_h ur_s ur_u ur_p ur_A].
  assert (X : es2ev e1 (fun i0 => if (i0 <? 5)%nat then ef i0 else pr_h r (i0 - 5)%nat) = es2ev e1 ef).
  { apply es2ev_ext. intros j Hj. destruct (Nat.ltb_spec j 5); [reflexivity|lia]. }
  rewrite X. split; [exact ER|]. split; [reflexivity|]. rewrite !transverse_norm. split; [exact C|]. split; [reflexivity|].
  split; [intros j; destruct (Nat.ltb_spec (5 + j) 5); [lia|f_equal; lia]|]. repeat split; try reflexivity. exact ES.
Qed.
(** ** the returned state is one of the three dimensional model, with the other stresses zero up to
    the tolerances *)
Lemma uni_sound solve M rt at_ miter e1 e0 T1 T0 t1 t0 s0 h0 u0 p0 q :
  uni_update solve M rt at_ miter e1 e0 T1 T0 t1 t0 s0 h0 u0 p0 = Ret q ->
  exists E E0 r g rg, strain_of e1 (ur_h q) E /\ strain_of e0 h0 E0 /\ strain_of e1 h0 g /\
    upd M E E0 T1 T0 t1 t0 (ss2sv s0) (fun i => h0 (5 + i)%nat) u0 p0 = Some r /\
    upd M g E0 T1 T0 t1 t0 (ss2sv s0) (fun i => h0 (5 + i)%nat) u0 p0 = Some rg /\
    (transverse (pr_s r) <= rt * transverse (pr_s rg) \/ transverse (pr_s r) <= at_) /\
    ur_s q = pr_s r 0%nat /\ (forall i, ur_h q (5 + i)%nat = pr_h r i) /\ ur_u q = pr_u r /\ ur_p q = pr_p r.
Proof.
  intros H. destruct (uni_parts _ _ _ _ _ _ _ _ _ _ _ _ _ _ _ _ H) as (r & rg & sv & ER & EG & C & S1 & S2 & S3 & S4 & _).
  exists (es2ev e1 (ur_h q)), (es2ev e0 h0), r, (es2ev e1 h0), rg. split; [apply es2ev_strain|]. split; [apply es2ev_strain|]. split; [apply es2ev_strain|].
  split; [exact ER|]. split; [exact EG|]. split; [exact C|]. split; [exact S1|]. split; [exact S2|]. split; assumption.
Qed.
(** ** its tangent is the slope at constant transverse stress *)
Lemma mv6 A v i : mv 6 A v i = A i 0%nat * v 0%nat + dot 5 (fun j => A i (S j)) (vtl v).
Proof. unfold mv, dot, vtl. cbn [rsum]. ring. Qed.
Lemma schur solve A sv (v : vec) : solve_ok solve -> solve 5%nat (A22 A) (A21 A) = Some sv ->
  (forall i, (1 <= i < 6)%nat -> mv 6 A v i = 0) -> mv 6 A v 0%nat = (A 0%nat 0%nat - dot 5 (A12 A) sv) * v 0%nat.
Proof.
  intros HS E H. destruct (HS _ _ _ _ E) as [S1 S2].
  (* the vector sv * v0 + vtl v is in the kernel; uniqueness *)
  assert (K : veq 5 (mv 5 (A22 A) (fun j => sv j * (1 + v 0%nat) + vtl v j)) (A21 A)).
  { intros i Hi. assert (Q := S1 i Hi). assert (P := H (S i) ltac:(lia)). rewrite mv6 in P. unfold mv, dot, A22, A21 in *.
    rewrite (rsum_ext 5 _ (fun j => (1 + v 0%nat) * (A (S i) (S j) * sv j) + A (S i) (S j) * vtl v j)) by (intros; ring). rewrite rsum_plus, rsum_scal, Q. lra. }
  assert (U := S2 _ K). rewrite mv6. unfold dot, A12. rewrite (rsum_ext 5 _ (fun j => (- v 0%nat) * (A 0%nat (S j) * sv j))).
  - rewrite rsum_scal. ring.
  - intros j Hj. assert (Q := U j Hj). cbv beta in Q. replace (vtl v j) with (- v 0%nat * sv j) by lra. ring.
Qed.
Lemma uni_tangent solve M rt at_ miter e1 e0 T1 T0 t1 t0 s0 h0 u0 p0 q : solve_ok solve ->
  uni_update solve M rt at_ miter e1 e0 T1 T0 t1 t0 s0 h0 u0 p0 = Ret q ->
  exists E E0, strain_of e1 (ur_h q) E /\ strain_of e0 h0 E0 /\
  let f := fun e => upd M e E0 T1 T0 t1 t0 (ss2sv s0) (fun i => h0 (5 + i)%nat) u0 p0 in
  (exact_at f E -> forall (y : R -> vec) (r : R -> pres) w v, y w = E -> path 6 y w v -> locally w (fun z => f (y z) = Some (r z)) ->
    (forall i, (1 <= i < 6)%nat -> is_derive (fun z => pr_s (r z) i) w 0) ->
    is_derive (fun z => pr_s (r z) 0%nat) w (ur_A q * v 0%nat)).
Proof.
  intros HS H. destruct (uni_parts _ _ _ _ _ _ _ _ _ _ _ _ _ _ _ _ H) as (r0 & rg & sv & ER & _ & _ & _ & _ & _ & _ & ES & EA).
  exists (es2ev e1 (ur_h q)), (es2ev e0 h0). split; [apply es2ev_strain|]. split; [apply es2ev_strain|]. cbv zeta. intros HX y r w v Ey Py HL HT.
  assert (X := HX y r w v Ey Py HL). assert (Er := locally_singleton _ _ HL). cbv beta in Er. rewrite Ey, ER in Er. injection Er as Er.
  rewrite <- Er in X. eapply D_eq; [exact (X 0%nat ltac:(lia))|]. rewrite EA. symmetry. symmetry. apply (schur solve); [exact HS|exact ES|]. intros i Hi.
  assert (D1 := X i ltac:(lia)). assert (D2 := HT i Hi). transitivity (Derive (fun z => pr_s (r z) i) w); [symmetry; apply is_derive_unique, D1|apply is_derive_unique, D2].
Qed.

(** ** linear elasticity *)
Lemma first_of_inverse S C E : (forall i j, (i < 6)%nat -> (j < 6)%nat -> mm 6 S C i j = delta i j) -> veq 6 (mv 6 S (mv 6 C E)) E.
Proof.
  intros H i Hi. rewrite <- (mv_mm 6 6). transitivity (mv 6 (fun p q => delta p q) E i); [|apply (mv_delta 6), Hi].
  unfold mv. apply rsum_ext. intros j Hj. rewrite (H i j Hi Hj). reflexivity.
Qed.
Lemma mv_veq n A v w i : veq n v w -> mv n A v i = mv n A w i.
Proof. intros H. unfold mv. apply rsum_ext. intros j Hj. rewrite (H j Hj). reflexivity. Qed.
Lemma mv_meq n A B v i : (i < n)%nat -> (forall i j, (i < n)%nat -> (j < n)%nat -> A i j = B i j) -> mv n A v i = mv n B v i.
Proof. intros Hi H. unfold mv. apply rsum_ext. intros j Hj. rewrite (H i j Hi Hj). reflexivity. Qed.
(** the axial stress is the strain over the compliance, up to the tolerances; the tangent is the
    inverse compliance *)
Lemma uni_elastic solve M rt at_ miter e1 e0 T1 T0 t1 t0 s0 h0 u0 p0 q C S : solve_ok solve -> elastic_base C (pm_base M) ->
  (forall i j, (i < 6)%nat -> (j < 6)%nat -> mm 6 S C i j = delta i j) -> S 0%nat 0%nat <> 0 ->
  uni_update solve M rt at_ miter e1 e0 T1 T0 t1 t0 s0 h0 u0 p0 = Ret q ->
  ur_A q = / S 0%nat 0%nat /\
  exists s, ur_s q = s 0%nat /\ e1 = S 0%nat 0%nat * ur_s q + dot 5 (A12 S) (vtl s) /\
    (transverse s <= rt * Rabs (sqrt (dot 5 (fun i => vtl (mv 6 C (es2ev e1 h0)) i) (fun i => vtl (mv 6 C (es2ev e1 h0)) i))) \/ transverse s <= at_).
Proof.
  intros HS HB HI H0 H. destruct (uni_parts _ _ _ _ _ _ _ _ _ _ _ _ _ _ _ _ H) as (r & rg & sv & ER & EG & HT & S1 & _ & _ & _ & ES & EA).
  unfold upd in ER, EG. destruct (HB {| ld_e := es2ev e1 (ur_h q); ld_T := T1; ld_t := t1 |} {| ld_e := es2ev e0 h0; ld_T := T0; ld_t := t0 |} (ss2sv s0) (fun i => h0 (5 + i)%nat) u0 p0) as (r' & Er & Hs & HA).
  rewrite ER in Er. injection Er as <-. cbn [ld_e] in Hs.
  destruct (HB {| ld_e := es2ev e1 h0; ld_T := T1; ld_t := t1 |} {| ld_e := es2ev e0 h0; ld_T := T0; ld_t := t0 |} (ss2sv s0) (fun i => h0 (5 + i)%nat) u0 p0) as (r' & Er & Hg & _).
  rewrite EG in Er. injection Er as <-. cbn [ld_e] in Hg. split.
  - destruct (HS _ _ _ _ ES) as [P _]. set (w := fun i => match i with O => 1 | Datatypes.S j => - sv j end).
    assert (Cw : forall i, (1 <= i < 6)%nat -> mv 6 (pr_A r) w i = 0).
    { intros i Hi. rewrite mv6. destruct i as [|i]; [lia|]. assert (Q := P i ltac:(lia)). unfold mv, A22, A21 in Q. unfold dot, vtl, w. rewrite <- Q.
      rewrite (rsum_ext 5 (fun i0 => pr_A r (Datatypes.S i) (Datatypes.S i0) * - sv i0) (fun j => - (pr_A r (Datatypes.S i) (Datatypes.S j) * sv j))) by (intros; ring). rewrite rsum_opp. ring. }
    assert (C0 := schur solve (pr_A r) sv w HS ES Cw). rewrite <- EA in C0. cbn [w] in C0. rewrite Rmult_1_r in C0.
    assert (Q := first_of_inverse S C w HI 0%nat ltac:(lia)). rewrite (mv_veq 6 S _ (fun i => if Nat.eqb i 0 then ur_A q else 0)) in Q.
    + cbn [w] in Q. rewrite mv6 in Q. cbn [Nat.eqb] in Q. unfold dot, vtl in Q. rewrite (rsum_ext 5 _ (fun _ => 0)), rsum_0 in Q by (intros; cbn; ring).
      apply (Rmult_eq_reg_l (S 0%nat 0%nat)); [|exact H0]. rewrite Rinv_r by exact H0. lra.
    + intros i Hi. rewrite <- (mv_meq 6 (pr_A r) C w i Hi HA). destruct (Nat.eqb_spec i 0) as [->|]; [exact C0|apply Cw; lia].
  - exists (pr_s r). split; [exact S1|]. split.
    + assert (Q := first_of_inverse S C (es2ev e1 (ur_h q)) HI 0%nat ltac:(lia)). rewrite <- (mv_veq 6 S _ _ 0%nat Hs) in Q. cbn [es2ev Nat.eqb] in Q. rewrite <- Q at 1.
      rewrite mv6, S1. reflexivity.
    + rewrite (transverse_norm (pr_s rg)) in HT. replace (norm2 5 (vtl (pr_s rg))) with (Rabs (sqrt (dot 5 (fun i => vtl (mv 6 C (es2ev e1 h0)) i) (fun i => vtl (mv 6 C (es2ev e1 h0)) i)))) in HT; [exact HT|].
      rewrite Rabs_pos_eq by apply sqrt_pos. unfold norm2. f_equal. unfold dot. apply rsum_ext. intros i Hi. unfold vtl. rewrite (Hg (Datatypes.S i) ltac:(lia)). reflexivity.
Qed.
(** and the update never fails *)
Lemma uni_elastic_works solve M rt at_ miter e1 e0 T1 T0 t1 t0 s0 h0 u0 p0 C S : solve_ok solve -> solve_total solve -> elastic_base C (pm_base M) ->
  (forall i j, (i < 6)%nat -> (j < 6)%nat -> mm 6 S C i j = delta i j) -> S 0%nat 0%nat <> 0 -> 0 <= rt -> 0 <= at_ -> (1 <= miter)%Z ->
  exists q, uni_update solve M rt at_ miter e1 e0 T1 T0 t1 t0 s0 h0 u0 p0 = Ret q.
Proof.
  intros HS HT HB HI H0 Hr Ha Hm.
  assert (NS : forall A w, (forall i j, (i < 6)%nat -> (j < 6)%nat -> A i j = C i j) -> veq 5 (mv 5 (A22 A) w) (fun _ => 0) -> veq 5 w (fun _ => 0)).
  { intros A w HA K. set (z := fun i => match i with O => 0 | Datatypes.S j => w j end).
    assert (Q : forall i, (i < 6)%nat -> mv 6 S (mv 6 C z) i = z i) by (intros i Hi; apply first_of_inverse; assumption).
    assert (Z : veq 6 (mv 6 C z) (fun i => if Nat.eqb i 0 then mv 6 C z 0%nat else 0)).
    { intros i Hi. destruct (Nat.eqb_spec i 0) as [->|]; [reflexivity|]. destruct i as [|i]; [lia|]. rewrite <- (mv_meq 6 A C z _ Hi HA), mv6. cbn [z]. rewrite Rmult_0_r, Rplus_0_l.
      rewrite <- (K i ltac:(lia)). unfold mv, dot, A22, vtl. reflexivity. }
    assert (a0 : mv 6 C z 0%nat = 0).
    { assert (Q0 := Q 0%nat ltac:(lia)). rewrite (mv_veq 6 S _ _ 0%nat Z), mv6 in Q0. cbn [Nat.eqb z] in Q0. unfold dot, vtl in Q0. rewrite (rsum_ext 5 _ (fun _ => 0)), rsum_0 in Q0 by (intros; cbn; ring).
      apply (Rmult_eq_reg_l (S 0%nat 0%nat)); [lra|exact H0]. }
    intros i Hi. assert (Q1 := Q (Datatypes.S i) ltac:(lia)). rewrite (mv_veq 6 S _ (fun _ => 0)) in Q1.
    - cbn [z] in Q1. rewrite <- Q1. unfold mv. rewrite (rsum_ext 6 _ (fun _ => 0)) by (intros; ring). apply rsum_0.
    - intros j Hj. rewrite (Z j Hj). destruct (Nat.eqb j 0); [exact a0|reflexivity]. }
  unfold uni_update.
  set (f := fun x => upd M (es2ev e1 x) (es2ev e0 h0) T1 T0 t1 t0 (ss2sv s0) (fun i => h0 (5 + i)%nat) u0 p0).
  assert (HF : forall x, exists r, f x = Some r /\ veq 6 (pr_s r) (mv 6 C (es2ev e1 x)) /\ forall i j, (i < 6)%nat -> (j < 6)%nat -> pr_A r i j = C i j) by (intros x; apply HB).
  destruct (linear_once 5 (A22 C) (fun i => - (C (Datatypes.S i) 0%nat * e1)) h0 (sys_RJ (uni_sys solve M e1 e0 T1 T0 t1 t0 s0 h0 u0 p0)) (solve 5%nat) rt at_ miter (vlin 5)) as (x & d & i & EN & _); try assumption.
  - intros J r v E. apply (HS 5%nat _ _ _ E).
  - intros x. destruct (HF x) as (r & E & Hs & HA). cbn [uni_sys vec_sys sys_RJ]. unfold f in E. rewrite E. eexists. split; [reflexivity|]. cbn [fst snd]. split.
    + intros i Hi. unfold vtl. rewrite (Hs (Datatypes.S i) ltac:(lia)), mv6. cbn [es2ev Nat.eqb]. unfold mv, dot, A22, vtl. cbn [rsum]. unfold es2ev. cbn. ring.
    + intros i j Hi Hj. unfold A22. apply HA; lia.
  - intros d E. destruct (HF h0) as (r & Er & Hs & HA). cbn [uni_sys vec_sys sys_RJ] in E. unfold f in Er. rewrite Er in E. injection E as <-. cbn [fst snd].
    apply HT. intros w. apply NS, HA.
  - change (vec_sys 5 h0 (sys_RJ (uni_sys solve M e1 e0 T1 T0 t1 t0 s0 h0 u0 p0)) (solve 5%nat)) with (uni_sys solve M e1 e0 T1 T0 t1 t0 s0 h0 u0 p0) in EN. rewrite EN.
    destruct (HF x) as (r & E & Hs & HA). unfold f in E. rewrite E. destruct (HT 5%nat (A22 (pr_A r)) (A21 (pr_A r))) as [v Ev]; [intros w; apply NS, HA|]. rewrite Ev. eauto.
Qed.

(** ** over whole histories *)
Lemma uni_history solve M rt at_ miter q : uni_reach solve M rt at_ miter q ->
  exists E s, strain_of (uu_e q) (uu_h q) E /\ uu_s q = s 0%nat /\ uniaxial_history M rt at_ E (uu_T q) (uu_t q) s (fun i => uu_h q (5 + i)%nat) (uu_u q) (uu_p q).
Proof.
  assert (G : uni_reach solve M rt at_ miter q -> exists s, uu_s q = s 0%nat /\
     uniaxial_history M rt at_ (es2ev (uu_e q) (uu_h q)) (uu_T q) (uu_t q) s (fun i => uu_h q (5 + i)%nat) (uu_u q) (uu_p q)).
  { induction 1 as [T t|q l q' Hq IH HS].
    - exists (fun _ => 0). split; [reflexivity|]. cbn [uni_start uu_e uu_h uu_T uu_t uu_u uu_p].
      replace (es2ev 0 (uni_init M)) with (fun _ : nat => 0).
      + replace (fun i : nat => uni_init M (5 + i)%nat) with (ba_init (pm_base M)); [constructor|]. apply functional_extensionality. intros i. unfold uni_init.
        destruct (Nat.ltb_spec (5 + i) 5); [lia|]. f_equal. lia.
      + apply functional_extensionality. intros i. unfold es2ev, uni_init. destruct (Nat.eqb i 0); [reflexivity|]. destruct (Nat.ltb_spec i 6); [|reflexivity].
        destruct (Nat.ltb_spec (i - 1) 5); [reflexivity|lia].
    - destruct IH as (s & Es & IH). unfold uni_step in HS. destruct (uni_update _ _ _ _ _ _ _ _ _ _ _ _ _ _ _) as [r|] eqn:E; [|discriminate]. injection HS as <-.
      destruct (uni_parts _ _ _ _ _ _ _ _ _ _ _ _ _ _ _ _ E) as (R1 & rg & sv & ER & EG & HT & S1 & S2 & S3 & S4 & _).
      cbn [uu_e uu_h uu_T uu_t uu_s uu_u uu_p]. exists (pr_s R1). split; [exact S1|]. rewrite S3, S4.
      replace (fun i : nat => ur_h r (5 + i)%nat) with (pr_h R1) by (apply functional_extensionality; intros i; symmetry; apply S2). rewrite Es in ER, EG.
      apply (uh_step M rt at_ _ _ _ _ _ _ _ _ _ _ _ (es2ev (us_e l) (uu_h q)) rg IH ER); [reflexivity| |exact EG|exact HT].
      intros i Hi. unfold es2ev. destruct (Nat.eqb_spec i 0); [lia|]. destruct (Nat.ltb_spec i 6); [reflexivity|lia]. }
  intros H. destruct (G H) as (s & E1 & E2). exists (es2ev (uu_e q) (uu_h q)), s. split; [apply es2ev_strain|]. split; assumption.
Qed.

(** ** elastic strains *)
Lemma uni_estrain_ok M s T h : (forall a b, pm_estrain M (ss2sv s) T a = pm_estrain M (ss2sv s) T b) -> uni_estrain M s T h = pm_estrain M (ss2sv s) T (fun i => h (5 + i)%nat) 0%nat.
Proof. intros H. unfold uni_estrain. rewrite (H h (fun i => h (5 + i)%nat)). reflexivity. Qed.
(** a model whose elastic strain reads its store gets the wrong part of it *)
Lemma uni_estrain_wrong : exists M, forall s T, let own := fun i => uni_init M (5 + i)%nat in
  own = ba_init (pm_base M) /\ pm_estrain M (ss2sv s) T own 0%nat = s /\ uni_estrain M s T (uni_init M) = 0.
Proof.
  exists {| pm_base := {| ba_nh := 1; ba_update := fun _ _ _ _ _ _ => None; ba_init := fun _ => 1 |}; pm_alpha := fun _ => 0;
            pm_estrain := fun s _ h i => h 0%nat * s i; pm_damage := fun _ => 0 |}.
  intros s T. cbv zeta. split; [apply functional_extensionality; intros i; unfold uni_init; destruct (Nat.ltb_spec (5 + i) 5); [lia|reflexivity]|].
  unfold uni_estrain, uni_init, ss2sv. cbn. split; ring.
Qed.

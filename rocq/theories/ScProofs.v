(** Proofs for the single crystal. *)
From Verif Require Import Base.
From Verif Require Import Diff.
From Verif Require Import NemlMathModel.
From Verif Require Import NemlMathSpec.
From Verif Require Import NemlMathProofs.
From Verif Require Import SolverModel.
From Verif Require Import PlastSpec.
From Verif Require Import PlastProofs.
From Verif Require Import SurfProofs.
From Verif Require Import J2CreepProofs.
From Verif Require Import RotModel.
From Verif Require Import RotSpec.
From Verif Require Import RotProofs.
From Verif Require Import RotMore.
From Verif Require Import TensorModel.
From Verif Require Import CpModel.
From Verif Require Import CpSpec.
From Verif Require Import CpProofs.
From Verif Require Import CpFacts.
From Verif Require Import CpTurn.
From Verif Require Import ScModel.
From Verif Require Import ScSpec.
From Coq Require Import List ZArith Lia Lra.

Lemma ltb6_t i : (i < 6)%nat -> Nat.ltb i 6 = true.
Proof. apply Nat.ltb_lt. Qed.
Lemma ltb6_f i : (6 <= i)%nat -> Nat.ltb i 6 = false.
Proof. apply Nat.ltb_ge. Qed.
Lemma mv_scal n A x c i : mv n A (fun j => c * x j) i = c * mv n A x i.
Proof. unfold mv. rewrite <- rsum_scal. apply rsum_ext. intros; ring. Qed.
Lemma net_scal e w c k : (k < 6)%nat -> net e (fun l => c * w l) k = c * net e w k.
Proof. intros Hk. rewrite !net_table by exact Hk. cases6 k Hk; ring. Qed.

(** *** The residual is the gap *)
Lemma dt_D k i : k_dt k * k_D k i = if Req_EM_T (k_dt k) 0 then 0 else inc_d k i.
Proof. unfold k_D, inc_d. destruct (Req_EM_T (k_dt k) 0) as [E|E]; [rewrite E; unfold vzero; ring|field; exact E]. Qed.
Lemma dt_W k i : k_dt k * k_W k i = if Req_EM_T (k_dt k) 0 then 0 else inc_w k i.
Proof. unfold k_W, inc_w. destruct (Req_EM_T (k_dt k) 0) as [E|E]; [rewrite E; unfold vzero; ring|field; exact E]. Qed.

Lemma residual_gap c k pred sd s0 h x i : k_t1 k <> k_t0 k ->
  sc_R c (sub_trial c k pred sd s0 h) x i = euler_gap c k (/ 2 ^ sd) (k_T0 k + (k_T1 k - k_T0 k) * / 2 ^ sd) s0 h x i.
Proof.
  intros Hd. assert (Hdt : k_dt k <> 0) by (unfold k_dt; lra).
  unfold sc_R, euler_gap, sub_trial, t_im. cbn [t_Sn t_h t_d t_dt t_f t_T t_Q]. fold (tail6 x).
  set (f := / 2 ^ sd). set (T := k_T0 k + (k_T1 k - k_T0 k) * f). set (m := c_im c T (k_q k)).
  destruct (Nat.lt_ge_cases i 6) as [L|G]; [rewrite (ltb6_t i L)|rewrite (ltb6_f i G)].
  - unfold sk_rate, sk_e, sk_O, sk_decouple. cbn [f_C f_S f_spin]. f_equal.
    rewrite <- Rmult_comm, <- mv_scal. apply mv_vec_ext. intros j Hj. unfold vsub.
    pose proof (dt_D k j) as ED. destruct (Req_EM_T (k_dt k) 0) as [|_]; [contradiction|].
    rewrite (net_ext _ (mv 6 (flat 6 (c_S c T (k_q k))) x) (fun l => f * inc_w k l + f * (k_t1 k - k_t0 k) * (i_wp m x (tail6 x) l - i_wp m s0 h l))
        (fun l => (k_dt k * f) * vadd (sk_spin (c_S c T (k_q k)) m s0 (k_W k) h) (i_wp m x (tail6 x)) l) j); [|reflexivity| |exact Hj].
    + rewrite net_scal by exact Hj. rewrite <- ED. unfold k_dt. ring.
    + intros l Hl. unfold vadd. rewrite spin_value by exact Hl. pose proof (dt_W k l) as EW. destruct (Req_EM_T (k_dt k) 0) as [|_]; [contradiction|].
      rewrite <- EW. unfold k_dt. ring.
  - unfold k_dt. ring.
Qed.

(** *** An accepted attempt *)
Definition tol_step (o : scopt) (c : crystal) (k : call) (pred : bool) (sd : nat) (s0 h x : vec) : Prop :=
  let T := k_T0 k + (k_T1 k - k_T0 k) * / 2 ^ sd in
  within_tolerance (so_prm o) (6 + c_n c) (euler_gap c k (/ 2 ^ sd) T s0 h x)
    (euler_gap c k (/ 2 ^ sd) T s0 h (sc_init (sub_trial c k pred sd s0 h))).
Lemma solve_tol lsolve c o k pred sd s0 h x : (1 <= miter (so_prm o))%Z -> k_t1 k <> k_t0 k ->
  sub_solve lsolve c o (sub_trial c k pred sd s0 h) = Some x -> tol_step o c k pred sd s0 h x.
Proof.
  intros Hm Hd H. unfold sub_solve in H. destruct (newton _ (so_prm o)) as [[[y [r J]] n]|] eqn:N; [|discriminate]. injection H as <-.
  destruct (newton_sound _ _ _ _ _ _ _ _ _ Hm N) as (E & r0 & J0 & E0 & W). injection E as E1 E2. injection E0 as E01 E02.
  unfold tol_step. cbv zeta. unfold within_tolerance in *.
  rewrite (norm2_ext _ (euler_gap c k (/ 2 ^ sd) _ s0 h y) r) by (intros i Hi; rewrite <- E1; symmetry; apply residual_gap; exact Hd).
  rewrite (norm2_ext _ (euler_gap c k (/ 2 ^ sd) _ s0 h (sc_init _)) r0) by (intros i Hi; rewrite <- E01; symmetry; apply residual_gap; exact Hd).
  exact W.
Qed.

(** What the loop leaves: the state is the solution of the last substep, and the tangents and
    rotation are those of that substep. *)
Definition ended lsolve inv c o k pred (s h : vec) (out : option final) : Prop :=
  exists sd s0 h0 A B, (so_force o <= sd <= so_max o)%nat /\
    ((forall s h, sub_solve lsolve c o (sub_trial c k pred (so_force o) s h) <> None) -> sd = so_force o) /\ (sd = so_force o -> so_force o = 0%nat -> s0 = k_s k /\ h0 = k_h k) /\
    sub_solve lsolve c o (sub_trial c k pred sd s0 h0) = Some s /\ h = tail6 s /\
    sc_tangents inv c (sub_trial c k pred sd s0 h0) s = Some (A, B) /\
    out = Some (A, B, if so_rot o then sc_rot c (sub_trial c k pred sd s0 h0) s h else k_q k).

Lemma loop_ended lsolve inv c o k pred fuel : forall progress cur sd s h out s' h' out',
  sub_loop fuel lsolve inv c o k pred progress cur sd s h out = Some (Some (s', h', out')) ->
  (so_force o <= sd <= so_max o)%nat -> cur = (2 ^ (so_max o - sd))%nat -> (exists a, progress = a * cur)%nat -> (progress <= 2 ^ so_max o)%nat ->
  ((forall s h, sub_solve lsolve c o (sub_trial c k pred (so_force o) s h) <> None) -> sd = so_force o) ->
  (progress = 0%nat -> s = k_s k /\ h = k_h k) ->
  (progress = (2 ^ so_max o)%nat -> ended lsolve inv c o k pred s h out) ->
  ended lsolve inv c o k pred s' h' out'.
Proof.
  induction fuel as [|fuel IH]; intros progress cur sd s h out s' h' out' H Hsd Hc (a & Ha) Hp Hal H0 He; [discriminate|].
  cbn [sub_loop] in H. set (target := (2 ^ so_max o)%nat) in *.
  assert (Ht : target = (2 ^ sd * cur)%nat) by (unfold target; rewrite Hc, <- Nat.pow_add_r; f_equal; lia).
  assert (Hcp : (0 < cur)%nat) by (rewrite Hc; pose proof (Nat.pow_nonzero 2 (so_max o - sd)); lia).
  destruct (Nat.ltb progress target) eqn:L.
  - apply Nat.ltb_lt in L. destruct (sub_solve lsolve c o (sub_trial c k pred sd s h)) as [x|] eqn:SV.
    + assert (Hle : (progress + cur <= target)%nat).
      { rewrite Ht, Ha in L |- *. assert (a < 2 ^ sd)%nat by nia. nia. }
      destruct (Nat.eqb (progress + cur) target) eqn:Q.
      * apply Nat.eqb_eq in Q. destruct (sc_tangents inv c (sub_trial c k pred sd s h) x) as [[A B]|] eqn:TG; [|discriminate].
        refine (IH _ _ _ _ _ _ _ _ _ H Hsd Hc _ Hle Hal _ _).
        -- exists (a + 1)%nat. rewrite Ha. ring.
        -- intros Z. lia.
        -- intros _. exists sd, s, h, A, B. split; [exact Hsd|]. split; [exact Hal|]. split; [|split; [exact SV|split; [reflexivity|split; [exact TG|reflexivity]]]].
           intros E1 E2. apply H0. rewrite E2 in E1. subst sd. cbn [Nat.pow] in Ht.
           assert (Ec : cur = target) by lia. lia.
      * apply Nat.eqb_neq in Q. refine (IH _ _ _ _ _ _ _ _ _ H Hsd Hc _ Hle Hal _ _).
        -- exists (a + 1)%nat. rewrite Ha. ring.
        -- intros Z. lia.
        -- intros Z. contradiction.
    + destruct (Nat.leb (so_max o) (sd + 1)) eqn:M; [discriminate|]. apply Nat.leb_gt in M.
      assert (H2 : (cur = 2 * (cur / 2))%nat).
      { rewrite Hc. replace (so_max o - sd)%nat with (S (so_max o - (sd + 1)))%nat by lia. cbn [Nat.pow].
        set (z := (2 ^ (so_max o - (sd + 1)))%nat). rewrite (Nat.mul_comm 2 z), Nat.div_mul by lia. ring. }
      refine (IH _ _ _ _ _ _ _ _ _ H _ _ _ Hp _ H0 He); [lia| | |].
      * assert (Hx : (2 ^ (so_max o - sd) = 2 * 2 ^ (so_max o - (sd + 1)))%nat) by (replace (so_max o - sd)%nat with (S (so_max o - (sd + 1)))%nat by lia; reflexivity). lia.
      * exists (2 * a)%nat. rewrite Ha, H2 at 1. ring.
      * intros Hall. exfalso. specialize (Hal Hall). subst sd. exact (Hall s h SV).
  - apply Nat.ltb_ge in L. injection H as <- <- <-. apply He. lia.
Qed.
Lemma attempt_ended fuel lsolve inv c o k pred r : (so_force o <= so_max o)%nat ->
  attempt fuel lsolve inv c o k pred = Some (Some r) ->
  exists out, ended lsolve inv c o k pred (r_s r) (r_h r) out /\
    (forall A B q, out = Some (A, B, q) -> r_AB r = Some (A, B) /\ r_q r = q) /\ r_q0 r = qzero /\
    r_u r = k_u k + sc_energy (k_d1 k) (k_d0 k) (r_s r) (k_s k) /\
    r_p r = k_p k + sc_work c (k_d1 k) (k_d0 k) (r_s r) (k_s k) (k_T1 k) (k_T0 k) (r_q r) (k_q k).
Proof.
  intros Hf H. unfold attempt in H. destruct (sub_loop _ _ _ _ _ _ _ _ _ _ _ _ _) as [[[[s h] out]|]|] eqn:L; try discriminate.
  injection H as <-. cbn [r_s r_h r_AB r_q r_q0 r_u r_p]. exists out. split; [|split; [|split; [reflexivity|split; reflexivity]]].
  - apply (loop_ended _ _ _ _ _ _ _ _ _ _ _ _ _ _ _ _ L); [lia| | |lia|auto|auto|].
    + unfold first_inc. rewrite (proj2 (Nat.leb_le _ _) Hf). reflexivity.
    + exists 0%nat. reflexivity.
    + intros Z. pose proof (Nat.pow_nonzero 2 (so_max o)). lia.
  - intros A B q ->. split; reflexivity.
Qed.

(** *** Termination *)
Lemma loop_ends lsolve inv c o k pred fuel : forall progress cur sd s h out,
  (sd <= so_max o)%nat -> cur = (2 ^ (so_max o - sd))%nat -> (exists a, progress = a * cur)%nat -> (progress <= 2 ^ so_max o)%nat ->
  (2 ^ so_max o - progress + (so_max o - sd) < fuel)%nat ->
  sub_loop fuel lsolve inv c o k pred progress cur sd s h out <> None.
Proof.
  induction fuel as [|fuel IH]; intros progress cur sd s h out Hsd Hc (a & Ha) Hp Hf; [lia|].
  cbn [sub_loop]. set (target := (2 ^ so_max o)%nat) in *.
  assert (Ht : target = (2 ^ sd * cur)%nat) by (unfold target; rewrite Hc, <- Nat.pow_add_r; f_equal; lia).
  assert (Hcp : (0 < cur)%nat) by (rewrite Hc; pose proof (Nat.pow_nonzero 2 (so_max o - sd)); lia).
  destruct (Nat.ltb progress target) eqn:L; [|discriminate].
  apply Nat.ltb_lt in L.
  assert (Hle : (progress + cur <= target)%nat).
  { rewrite Ht, Ha in L |- *. assert (a < 2 ^ sd)%nat by nia. nia. }
  destruct (sub_solve lsolve c o (sub_trial c k pred sd s h)) as [x|] eqn:SV.
  - assert (Hm : (exists b, progress + cur = b * cur)%nat) by (exists (a + 1)%nat; rewrite Ha; ring).
    destruct (Nat.eqb (progress + cur) target); [destruct (sc_tangents inv c (sub_trial c k pred sd s h) x) as [[A B]|]; [|discriminate]|];
    apply IH; try assumption; lia.
  - destruct (Nat.leb (so_max o) (sd + 1)) eqn:M; [discriminate|]. apply Nat.leb_gt in M.
    assert (H2 : (cur = 2 * (cur / 2))%nat).
    { rewrite Hc. replace (so_max o - sd)%nat with (S (so_max o - (sd + 1)))%nat by lia. cbn [Nat.pow].
      set (z := (2 ^ (so_max o - (sd + 1)))%nat). rewrite (Nat.mul_comm 2 z), Nat.div_mul by lia. ring. }
    apply IH; [lia| |exists (2 * a)%nat; rewrite Ha, H2 at 1; ring|assumption|lia].
    assert (Hx : (2 ^ (so_max o - sd) = 2 * 2 ^ (so_max o - (sd + 1)))%nat) by (replace (so_max o - sd)%nat with (S (so_max o - (sd + 1)))%nat by lia; reflexivity). lia.
Qed.
Lemma attempt_ends lsolve inv c o k pred : (so_force o <= so_max o)%nat ->
  attempt (2 ^ so_max o + so_max o + 1) lsolve inv c o k pred <> None.
Proof.
  intros Hf. unfold attempt. pose proof (loop_ends lsolve inv c o k pred (2 ^ so_max o + so_max o + 1) 0 (first_inc o) (so_force o) (k_s k) (k_h k) None Hf) as L.
  destruct (sub_loop _ _ _ _ _ _ _ _ _ _ _ _ _) as [[[[s h] out]|]|]; try discriminate. exfalso. apply L.
  - unfold first_inc. rewrite (proj2 (Nat.leb_le _ _) Hf). reflexivity.
  - exists 0%nat. reflexivity.
  - lia.
  - lia.
  - reflexivity.
Qed.
Lemma update_ends lsolve inv c o k : (so_force o <= so_max o)%nat ->
  sc_update (2 ^ so_max o + so_max o + 1) lsolve inv c o k <> None.
Proof.
  intros Hf. unfold sc_update. destruct (andb _ _); [apply attempt_ends; exact Hf|]. destruct (so_pred o); [apply attempt_ends; exact Hf|].
  pose proof (attempt_ends lsolve inv c o k false Hf). destruct (attempt _ _ _ _ _ _ false) as [[r|]|]; [discriminate| |contradiction].
  destruct (so_fallback o); [apply attempt_ends; exact Hf|discriminate].
Qed.
(** With more forced than allowed subdivisions no result ever comes out. *)
Lemma loop_never lsolve inv c o k pred fuel : forall sd s h out, sub_loop fuel lsolve inv c o k pred 0 0 sd s h out <> None ->
  sub_loop fuel lsolve inv c o k pred 0 0 sd s h out = Some None.
Proof.
  induction fuel as [|fuel IH]; intros sd s h out; cbn [sub_loop]; [congruence|].
  assert (P : (0 < 2 ^ so_max o)%nat) by (pose proof (Nat.pow_nonzero 2 (so_max o)); lia).
  rewrite (proj2 (Nat.ltb_lt _ _) P).
  destruct (sub_solve lsolve c o (sub_trial c k pred sd s h)) as [x|].
  - cbn [Nat.add]. rewrite (proj2 (Nat.eqb_neq 0 (2 ^ so_max o)) ltac:(lia)). apply IH.
  - destruct (Nat.leb (so_max o) (sd + 1)); [reflexivity|]. apply IH.
Qed.
Lemma attempt_never fuel lsolve inv c o k pred r : (so_max o < so_force o)%nat -> attempt fuel lsolve inv c o k pred <> Some (Some r).
Proof.
  intros Hf. unfold attempt, first_inc. rewrite (proj2 (Nat.leb_gt _ _) Hf).
  pose proof (loop_never lsolve inv c o k pred fuel (so_force o) (k_s k) (k_h k) None) as L.
  destruct (sub_loop _ _ _ _ _ _ _ _ _ _ _ _ _) as [[[[s h] out]|]|]; try discriminate. exfalso. specialize (L ltac:(discriminate)). discriminate.
Qed.

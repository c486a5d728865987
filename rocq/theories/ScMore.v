(** Jacobian, tangents, elastic crystals, rotation and energy of the single crystal. *)
From Verif Require Import Base.
From Verif Require Import Diff.
From Verif Require Import NemlMathModel.
From Verif Require Import NemlMathSpec.
From Verif Require Import NemlMathProofs.
From Verif Require Import SolverModel.
From Verif Require Import PlastSpec.
From Verif Require Import PlastProofs.
From Verif Require Import SurfProofs.
From Verif Require Import J2CreepProofs.
From Verif Require Import RotModel.
From Verif Require Import RotSpec.
From Verif Require Import RotProofs.
From Verif Require Import RotMore.
From Verif Require Import TensorModel.
From Verif Require Import CpModel.
From Verif Require Import CpSpec.
From Verif Require Import CpProofs.
From Verif Require Import CpFacts.
From Verif Require Import CpTurn.
From Verif Require Import ScModel.
From Verif Require Import ScSpec.
From Verif Require Import ScProofs.
From Coq Require Import List ZArith Lia Lra.

(** *** The Jacobian of the residual *)
Lemma path_tail n (x : R -> vec) t v : path (6 + n) x t v -> path 6 x t v /\ path n (fun u => tail6 (x u)) t (tail6 v).
Proof. intros H. split; intros i Hi; [apply H; lia|unfold tail6; apply H; lia]. Qed.
Lemma rsum_6n n f : rsum (6 + n) f = rsum 6 f + rsum n (fun q => f (6 + q)%nat).
Proof. induction n as [|n IH]; [rewrite Nat.add_0_r; cbn [rsum]; ring|]. replace (6 + S n)%nat with (S (6 + n)) by lia. cbn [rsum] in *. rewrite IH. ring. Qed.
Lemma mv_J c ts x v i : (i < 6 + c_n c)%nat -> mv (6 + c_n c) (sc_J c ts x) v i = v i - t_dt ts *
  (if Nat.ltb i 6 then mv 6 (sk_ds (t_f ts) (t_im c ts) x (tail6 x)) v i + mv (c_n c) (sk_dh (t_f ts) (t_im c ts) x (tail6 x)) (tail6 v) i
   else mv 6 (i_rate_s (t_im c ts) x (tail6 x)) v (i - 6)%nat + mv (c_n c) (i_rate_h (t_im c ts) x (tail6 x)) (tail6 v) (i - 6)%nat).
Proof.
  intros Hi. unfold mv at 1. unfold sc_J.
  transitivity (rsum (6 + c_n c) (fun j => delta i j * v j) - t_dt ts * rsum (6 + c_n c) (fun j =>
    (if Nat.ltb i 6 then if Nat.ltb j 6 then sk_ds (t_f ts) (t_im c ts) x (tail6 x) i j else sk_dh (t_f ts) (t_im c ts) x (tail6 x) i (j - 6)%nat
     else if Nat.ltb j 6 then i_rate_s (t_im c ts) x (tail6 x) (i - 6)%nat j else i_rate_h (t_im c ts) x (tail6 x) (i - 6)%nat (j - 6)%nat) * v j)).
  { rewrite <- rsum_scal, <- rsum_minus. apply rsum_ext. intros j Hj. destruct (Nat.ltb i 6), (Nat.ltb j 6); ring. }
  rewrite (rsum_delta (6 + c_n c) i v Hi). f_equal. f_equal. rewrite rsum_6n.
  destruct (Nat.ltb i 6) eqn:L; (apply f_equal2; [reflexivity|]); unfold mv; apply rsum_ext; intros j Hj;
    rewrite (ltb6_f (6 + j) ltac:(lia)); replace (6 + j - 6)%nat with j by lia; reflexivity.
Qed.
Lemma jacobian_exact c ts P : i_n (t_im c ts) = c_n c -> inelastic_exact (t_im c ts) P ->
  is_jac (6 + c_n c) (6 + c_n c) (fun x => P x (tail6 x)) (sc_R c ts) (sc_J c ts).
Proof.
  intros Hn HE x t v Hx HP i Hi. destruct (path_tail _ _ _ _ Hx) as [Hs Hh].
  rewrite mv_J by exact Hi. unfold sc_R. destruct (Nat.lt_ge_cases i 6) as [L|G]; [rewrite (ltb6_t i L)|rewrite (ltb6_f i G)].
  - rewrite <- Hn in Hh |- *. pose proof (stress_rate_exact (t_f ts) (t_im c ts) P (t_d ts) HE x (fun u => tail6 (x u)) t v (tail6 v) Hs Hh HP i L) as D.
    eapply D_eq; [apply D_minus; [apply D_minus; [apply (Hx i Hi)|apply D_const]|apply D_mult; [exact D|apply D_const]]|cbv beta; unfold vadd; ring].
  - destruct HE as (_ & _ & HR). rewrite <- Hn in Hh |- *.
    pose proof (HR x (fun u => tail6 (x u)) t v (tail6 v) Hs Hh HP (i - 6)%nat ltac:(lia)) as D.
    eapply D_eq; [apply D_minus; [apply D_minus; [apply (Hx i Hi)|apply D_const]|apply D_mult; [exact D|apply D_const]]|cbv beta; unfold vadd; ring].
Qed.

(** *** Block elimination *)
Lemma mv_mm_at n m A B x i : mv n A (mv m B x) i = mv m (mm n A B) x i.
Proof.
  unfold mv, mm. rewrite (rsum_ext n _ (fun j => rsum m (fun k => A i j * B j k * x k))) by (intros; rewrite <- rsum_scal; apply rsum_ext; intros; ring).
  rewrite rsum_swap. apply rsum_ext. intros k Hk. rewrite <- rsum_scal_r. apply rsum_ext. intros. ring.
Qed.
Lemma left_solve n K J x y : left_inverse n K J -> veq n (mv n J x) y -> veq n x (mv n K y).
Proof.
  intros HK HE i Hi. rewrite <- (mv_vec_ext n K _ _ i HE). rewrite mv_mm_at. unfold mv. rewrite (rsum_ext n _ (fun j => delta i j * x j)) by (intros j Hj; rewrite HK by assumption; reflexivity).
  rewrite rsum_delta by exact Hi. reflexivity.
Qed.
Lemma mv_split n J v i : mv (6 + n) J v i = mv 6 J v i + mv n (fun i j => J i (6 + j)%nat) (tail6 v) i.
Proof. unfold mv. apply rsum_6n. Qed.
(** J v = (y, 0): the first part of v is (J11 - J12 J22^-1 J21)^-1 y *)
Lemma block_solve n J K22 K v y :
  left_inverse n K22 (fun i j => J (6 + i)%nat (6 + j)%nat) ->
  left_inverse 6 K (fun i j => J i j - mm n (mm n (fun i j => J i (6 + j)%nat) K22) (fun i j => J (6 + i)%nat j) i j) ->
  (forall i, (i < 6)%nat -> mv (6 + n) J v i = y i) -> (forall q, (q < n)%nat -> mv (6 + n) J v (6 + q)%nat = 0) ->
  veq 6 v (mv 6 K y).
Proof.
  intros H22 HK H1 H2. apply (left_solve 6 K _ v y HK). intros i Hi.
  assert (Hh : veq n (tail6 v) (mv n K22 (fun q => - mv 6 (fun i j => J (6 + i)%nat j) v q))).
  { apply (left_solve n K22 _ _ _ H22). intros q Hq. specialize (H2 q Hq). rewrite mv_split in H2.
    change (mv 6 (fun i j => J (6 + i)%nat j) v q + mv n (fun i j => J (6 + i)%nat (6 + j)%nat) (tail6 v) q = 0) in H2. lra. }
  specialize (H1 i Hi). rewrite mv_split in H1.
  rewrite (mv_vec_ext n (fun i j => J i (6 + j)%nat) _ _ i Hh) in H1. rewrite mv_mm_at in H1.
  set (M := mm n (mm n (fun i j => J i (6 + j)%nat) K22) (fun i j => J (6 + i)%nat j)).
  transitivity (mv 6 J v i - mv 6 M v i).
  { unfold mv. rewrite <- rsum_minus. apply rsum_ext. intros; ring. }
  rewrite <- H1. unfold Rminus. f_equal.
  rewrite (mv_vec_ext n _ (fun q => - mv 6 (fun i j => J (6 + i)%nat j) v q) (fun q => -1 * mv 6 (fun i j => J (6 + i)%nat j) v q)) by (intros q Hq; ring).
  rewrite mv_scal. rewrite mv_mm_at. fold M. ring.
Qed.
Lemma mm_zero_r n M i j : mm n M (fun _ _ => 0) i j = 0.
Proof. unfold mm. rewrite (rsum_ext n _ (fun _ => 0)) by (intros; ring). apply rsum_0. Qed.
Lemma tangents_solve (inv : nat -> mat -> option mat) c ts x A B v vd vw : (forall n J K, inv n J = Some K -> left_inverse n K J) ->
  sc_tangents inv c ts x = Some (A, B) ->
  (forall i, (i < 6)%nat -> mv (6 + c_n c) (sc_J c ts x) v i = mv 6 (sk_dd (t_f ts)) vd i + mv 3 (sk_dw_decouple (t_f ts) x) vw i) ->
  (forall q, (q < c_n c)%nat -> mv (6 + c_n c) (sc_J c ts x) v (6 + q)%nat = 0) ->
  veq 6 v (vadd (mv 6 A vd) (mv 3 B vw)).
Proof.
  intros HI HT H1 H2.
  assert (HK : exists K, veq 6 v (mv 6 K (fun i => mv 6 (sk_dd (t_f ts)) vd i + mv 3 (sk_dw_decouple (t_f ts) x) vw i)) /\
     (forall i j, A i j = mm 6 K (sk_dd (t_f ts)) i j) /\ (forall i j, B i j = mm 6 K (sk_dw_decouple (t_f ts) x) i j)).
  { unfold sc_tangents in HT. destruct (c_n c) as [|n] eqn:En.
    - destruct (inv 6%nat (sc_J c ts x)) as [K|] eqn:EK; [|discriminate]. injection HT as <- <-. exists K.
      split; [apply (left_solve 6 K _ v _ (HI _ _ _ EK)); exact H1|]. split; [reflexivity|]. intros i j. unfold mm. apply rsum_ext. intros. unfold sk_dw. ring.
    - set (J := sc_J c ts x) in *. destruct (inv (S n) (fun i j => J (6 + i)%nat (6 + j)%nat)) as [K22|] eqn:E22; [|discriminate].
      match type of HT with context [match ?e with Some _ => _ | None => _ end] => destruct e as [K|] eqn:EK; [|discriminate] end.
      injection HT as <- <-. exists K. split; [exact (block_solve (S n) J K22 K v _ (HI _ _ _ E22) (HI _ _ _ EK) H1 H2)|].
      split; intros i j; apply rsum_ext; intros l Hl; rewrite mm_zero_r; unfold sk_dw; ring. }
  destruct HK as (K & Hv & HA & HB). intros i Hi. rewrite (Hv i Hi). unfold vadd.
  rewrite (mv_ext 6 A (mm 6 K (sk_dd (t_f ts))) vd i) by (intros; apply HA). rewrite (mv_ext 3 B (mm 6 K (sk_dw_decouple (t_f ts) x)) vw i) by (intros; apply HB).
  rewrite <- !mv_mm_at. unfold mv at 1. rewrite (rsum_ext 6 _ (fun j => K i j * mv 6 (sk_dd (t_f ts)) vd j + K i j * mv 3 (sk_dw_decouple (t_f ts) x) vw j)) by (intros; ring).
  rewrite rsum_plus. reflexivity.
Qed.

(** *** The derivative of the whole residual along a change of strain and vorticity *)
Lemma mv_plus n A x y i : mv n A (fun j => x j + y j) i = mv n A x i + mv n A y i.
Proof. unfold mv. rewrite <- rsum_plus. apply rsum_ext. intros; ring. Qed.
Lemma rate_split C S m s0 h0 w w' x h d d' i : (i < 6)%nat ->
  sk_rate (sk_decouple C S m s0 w h0) m x d h i =
  sk_rate (sk_decouple C S m s0 w' h0) m x d' h i + mv 6 (flat 6 C) (fun j => d j - d' j) i
  + mv 6 (fun i j => - flat 6 C i j) (net (mv 6 (flat 6 S) x) (fun l => w l - w' l)) i.
Proof.
  intros Hi. unfold sk_rate, sk_e, sk_O, sk_decouple. cbn [f_C f_S f_spin].
  rewrite (mv_opp 6 (flat 6 C)). set (e := mv 6 (flat 6 S) x).
  transitivity (mv 6 (flat 6 C) (fun j => (vsub (vsub d' (i_dp m x h)) (net e (vadd (sk_spin S m s0 w' h0) (i_wp m x h))) j + (d j - d' j)) + -1 * net e (fun l => w l - w' l) j) i).
  - apply mv_vec_ext. intros j Hj. unfold vsub.
    rewrite (net_ext e e (vadd (sk_spin S m s0 w h0) (i_wp m x h)) (fun l => vadd (sk_spin S m s0 w' h0) (i_wp m x h) l + (w l - w' l) * 1) j); [|reflexivity| |exact Hj].
    + rewrite net_lin_r by exact Hj. ring.
    + intros l Hl. unfold vadd. rewrite !spin_value by exact Hl. ring.
  - rewrite mv_plus. rewrite mv_plus, mv_scal. ring.
Qed.
Lemma rate_total C S m P s0 h0 (x h d w : R -> vec) t vx vh vd vw : inelastic_exact m P ->
  path 6 x t vx -> path (i_n m) h t vh -> path 6 d t vd -> path 3 w t vw -> P (x t) (h t) ->
  path 6 (fun u => sk_rate (sk_decouple C S m s0 (w u) h0) m (x u) (d u) (h u)) t
    (fun i => mv 6 (sk_ds (sk_decouple C S m s0 (w t) h0) m (x t) (h t)) vx i + mv (i_n m) (sk_dh (sk_decouple C S m s0 (w t) h0) m (x t) (h t)) vh i
      + (mv 6 (sk_dd (sk_decouple C S m s0 (w t) h0)) vd i + mv 3 (sk_dw_decouple (sk_decouple C S m s0 (w t) h0) (x t)) vw i)).
Proof.
  intros HE Hx Hh Hd Hw HP i Hi. set (f := sk_decouple C S m s0 (w t) h0).
  apply (D_ext (fun u => sk_rate f m (x u) (d t) (h u) i + mv 6 (flat 6 C) (fun j => d u j - d t j) i + mv 6 (fun i j => - flat 6 C i j) (net (mv 6 (flat 6 S) (x u)) (fun l => w u l - w t l)) i)).
  { intros u. symmetry. apply rate_split. exact Hi. }
  pose proof (stress_rate_exact f m P (d t) HE x h t vx vh Hx Hh HP i Hi) as D1.
  assert (D2 : path 6 (fun u => mv 6 (flat 6 C) (fun j => d u j - d t j)) t (mv 6 (flat 6 C) vd)).
  { apply path_mv. intros j Hj. eapply D_eq; [apply D_minus; [apply (Hd j Hj)|apply D_const]|cbv beta; ring]. }
  assert (D3 : path 6 (fun u => mv 6 (fun i j => - flat 6 C i j) (net (mv 6 (flat 6 S) (x u)) (fun l => w u l - w t l))) t
     (mv 6 (fun i j => - flat 6 C i j) (vadd (net (mv 6 (flat 6 S) vx) (fun l => w t l - w t l)) (net (mv 6 (flat 6 S) (x t)) vw)))).
  { apply path_mv. apply D_net; [apply path_mv; exact Hx|]. intros l Hl. eapply D_eq; [apply D_minus; [apply (Hw l Hl)|apply D_const]|cbv beta; ring]. }
  eapply D_eq; [apply D_plus; [apply D_plus; [exact D1|exact (D2 i Hi)]|exact (D3 i Hi)]|cbv beta].
  unfold sk_dw_decouple. rewrite (special_net _ _ vw i Hi). unfold vadd, sk_dd. cbn [f sk_decouple f_C].
  rewrite (mv_opp 6 (flat 6 C)). rewrite (mv_vec_ext 6 (flat 6 C) (fun i0 => net (mv 6 (flat 6 S) vx) (fun l => w t l - w t l) i0 + net (mv 6 (flat 6 S) (x t)) vw i0) (net (mv 6 (flat 6 S) (x t)) vw)).
  - unfold sk_e. cbn [f sk_decouple f_S]. ring.
  - intros j Hj. rewrite (net_ext _ (mv 6 (flat 6 S) vx) (fun l => w t l - w t l) (fun _ => 0) j) by (try exact Hj; intros; ring || reflexivity).
    rewrite net_0_r by exact Hj. ring.
Qed.

(** *** A step solved in one piece *)
Lemma attempt_whole fuel lsolve inv c o k pred r x : so_force o = 0%nat ->
  sub_solve lsolve c o (sub_trial c k pred 0 (k_s k) (k_h k)) = Some x ->
  attempt fuel lsolve inv c o k pred = Some (Some r) ->
  r_s r = x /\ r_h r = tail6 x /\ exists A B, sc_tangents inv c (sub_trial c k pred 0 (k_s k) (k_h k)) x = Some (A, B) /\
    r_AB r = Some (A, B) /\ r_q r = (if so_rot o then sc_rot c (sub_trial c k pred 0 (k_s k) (k_h k)) x (tail6 x) else k_q k).
Proof.
  intros Hf HS H. unfold attempt, first_inc in H. rewrite Hf in H. cbn [Nat.leb] in H. rewrite Nat.sub_0_r in H.
  destruct fuel as [|fuel]; [discriminate|]. cbn [sub_loop] in H.
  assert (Pp : (0 < 2 ^ so_max o)%nat) by (pose proof (Nat.pow_nonzero 2 (so_max o)); lia).
  rewrite (proj2 (Nat.ltb_lt _ _) Pp), HS in H. rewrite Nat.add_0_l, Nat.eqb_refl in H.
  destruct (sc_tangents inv c (sub_trial c k pred 0 (k_s k) (k_h k)) x) as [[A B]|] eqn:TG; [|discriminate].
  destruct fuel as [|fuel]; [discriminate|]. cbn [sub_loop] in H. rewrite Nat.ltb_irrefl in H. injection H as <-. cbn [r_s r_h r_AB r_q].
  split; [reflexivity|]. split; [reflexivity|]. exists A, B. split; [reflexivity|]. split; reflexivity.
Qed.
Lemma T_whole k : k_T0 k + (k_T1 k - k_T0 k) * / 2 ^ 0 = k_T1 k.
Proof. cbn [pow]. rewrite Rinv_1. ring. Qed.
Lemma with_same k (d w : R -> vec) t : d t = k_d1 k -> w t = k_w1 k -> with_dw k (d t) (w t) = k.
Proof. intros -> ->. destruct k; reflexivity. Qed.

Lemma residual_total c k pred P (X d w : R -> vec) t V vd vw : k_t1 k <> k_t0 k ->
  let m := c_im c (k_T1 k) (k_q k) in i_n m = c_n c -> inelastic_exact m P ->
  path (6 + c_n c) X t V -> path 6 d t vd -> path 3 w t vw -> P (X t) (tail6 (X t)) ->
  let ts := fun u => sub_trial c (with_dw k (d u) (w u)) pred 0 (k_s k) (k_h k) in
  path (6 + c_n c) (fun u => sc_R c (ts u) (X u)) t (vsub (mv (6 + c_n c) (sc_J c (ts t) (X t)) V)
    (fun i => if Nat.ltb i 6 then mv 6 (sk_dd (t_f (ts t))) vd i + mv 3 (sk_dw_decouple (t_f (ts t)) (X t)) vw i else 0)).
Proof.
  intros Hd m Hn HE HX Pd Pw HP ts i Hi.
  assert (Hdt : k_dt k <> 0) by (unfold k_dt; lra).
  destruct (path_tail _ _ _ _ HX) as [Hs Hh].
  unfold vsub. rewrite mv_J by exact Hi.
  assert (Em : forall u, t_im c (ts u) = m) by (intros u; unfold t_im, ts, sub_trial, m; cbn [t_T t_Q with_dw k_T0 k_T1 k_q]; rewrite T_whole; reflexivity).
  assert (Edt : forall u, t_dt (ts u) = k_dt k) by (intros u; unfold ts, sub_trial; cbn [t_dt pow]; unfold k_dt; cbn [with_dw k_t1 k_t0]; rewrite Rinv_1; ring).
  rewrite Em, Edt. 
  assert (ED : forall u, k_D (with_dw k (d u) (w u)) = fun i => (d u i - k_d0 k i) / k_dt k).
  { intros u. unfold k_D. change (k_dt (with_dw k (d u) (w u))) with (k_dt k). destruct (Req_EM_T (k_dt k) 0) as [|_]; [contradiction|]. reflexivity. }
  assert (EW : forall u, k_W (with_dw k (d u) (w u)) = fun i => (w u i - k_w0 k i) / k_dt k).
  { intros u. unfold k_W. change (k_dt (with_dw k (d u) (w u))) with (k_dt k). destruct (Req_EM_T (k_dt k) 0) as [|_]; [contradiction|]. reflexivity. }
  set (C := c_C c (k_T1 k) (k_q k)). set (S := c_S c (k_T1 k) (k_q k)).
  assert (Ef : forall u, t_f (ts u) = sk_decouple C S m (k_s k) (fun i => (w u i - k_w0 k i) / k_dt k) (k_h k)).
  { intros u. unfold ts, sub_trial. cbn [t_f]. cbn [with_dw k_T0 k_T1 k_q]. rewrite T_whole. rewrite <- EW. reflexivity. }
  apply (D_ext (fun u => if Nat.ltb i 6 then X u i - k_s k i - sk_rate (sk_decouple C S m (k_s k) (fun i => (w u i - k_w0 k i) / k_dt k) (k_h k)) m (X u) (fun i => (d u i - k_d0 k i) / k_dt k) (tail6 (X u)) i * k_dt k
     else X u i - k_h k (i - 6)%nat - i_rate m (X u) (tail6 (X u)) (i - 6)%nat * k_dt k)).
  { intros u. unfold sc_R. rewrite Em, Edt, Ef. unfold ts, sub_trial. cbn [t_Sn t_h t_d]. rewrite ED. reflexivity. }
  rewrite <- Hn in Hh |- *. rewrite Ef.
  destruct (Nat.lt_ge_cases i 6) as [L|G]; [rewrite (ltb6_t i L)|rewrite (ltb6_f i G)].
  - assert (Qd : path 6 (fun u i => (d u i - k_d0 k i) / k_dt k) t (fun i => / k_dt k * vd i)).
    { intros j Hj. eapply D_eq; [apply D_mult; [apply D_minus; [apply (Pd j Hj)|apply D_const]|apply D_const]|cbv beta; ring]. }
    assert (Qw : path 3 (fun u i => (w u i - k_w0 k i) / k_dt k) t (fun i => / k_dt k * vw i)).
    { intros j Hj. eapply D_eq; [apply D_mult; [apply D_minus; [apply (Pw j Hj)|apply D_const]|apply D_const]|cbv beta; ring]. }
    pose proof (rate_total C S m P (k_s k) (k_h k) X (fun u => tail6 (X u)) _ _ t V (tail6 V) _ _ HE Hs Hh Qd Qw HP i L) as D. cbv beta in D.
    eapply D_eq; [apply D_minus; [apply D_minus; [apply (HX i Hi)|apply D_const]|apply D_mult; [exact D|apply D_const]]|cbv beta].
    rewrite !mv_scal. field. exact Hdt.
  - destruct HE as (_ & _ & HR). pose proof (HR X (fun u => tail6 (X u)) t V (tail6 V) Hs Hh HP (i - 6)%nat ltac:(lia)) as D.
    eapply D_eq; [apply D_minus; [apply D_minus; [apply (HX i Hi)|apply D_const]|apply D_mult; [exact D|apply D_const]]|cbv beta; unfold vadd; ring].
Qed.
Lemma tangent_exact fuel lsolve inv c o k pred r A B P (d w X : R -> vec) t vd vw V :
  so_force o = 0%nat -> k_t1 k <> k_t0 k -> (forall n J K, inv n J = Some K -> left_inverse n K J) ->
  i_n (c_im c (k_T1 k) (k_q k)) = c_n c -> inelastic_exact (c_im c (k_T1 k) (k_q k)) P ->
  attempt fuel lsolve inv c o k pred = Some (Some r) -> sub_solve lsolve c o (sub_trial c k pred 0 (k_s k) (k_h k)) <> None ->
  r_AB r = Some (A, B) -> d t = k_d1 k -> w t = k_w1 k -> X t = r_s r ->
  path 6 d t vd -> path 3 w t vw -> path (6 + c_n c) X t V -> P (X t) (tail6 (X t)) ->
  locally t (fun u => veq (6 + c_n c) (whole_gap c (with_dw k (d u) (w u)) (X u)) vzero) ->
  path 6 X t (vadd (mv 6 A vd) (mv 3 B vw)).
Proof.
  intros Hf Hd HI Hn HE HA HS HAB Ed Ew EX Pd Pw HX HP HL.
  destruct (sub_solve lsolve c o (sub_trial c k pred 0 (k_s k) (k_h k))) as [x|] eqn:Sx; [clear HS|contradiction].
  destruct (attempt_whole fuel lsolve inv c o k pred r x Hf Sx HA) as (Ex & _ & A' & B' & HT & HAB' & _).
  rewrite HAB in HAB'. injection HAB' as <- <-. rewrite <- Ex, <- EX in HT. rewrite <- (with_same k d w t Ed Ew) in HT at 1.
  pose proof (residual_total c k pred P X d w t V vd vw Hd Hn HE HX Pd Pw HP) as D. cbv zeta in D.
  assert (Z : forall i, (i < 6 + c_n c)%nat -> mv (6 + c_n c) (sc_J c (sub_trial c (with_dw k (d t) (w t)) pred 0 (k_s k) (k_h k)) (X t)) V i =
    (if Nat.ltb i 6 then mv 6 (sk_dd (t_f (sub_trial c (with_dw k (d t) (w t)) pred 0 (k_s k) (k_h k)))) vd i + mv 3 (sk_dw_decouple (t_f (sub_trial c (with_dw k (d t) (w t)) pred 0 (k_s k) (k_h k))) (X t)) vw i else 0)).
  { intros i Hi. specialize (D i Hi). apply Rminus_diag_uniq.
    assert (D0 : is_derive (fun u => sc_R c (sub_trial c (with_dw k (d u) (w u)) pred 0 (k_s k) (k_h k)) (X u) i) t 0).
    { apply (D_loc (fun _ => 0)); [|apply D_const]. revert HL. apply filter_imp. intros u Hu. symmetry.
      rewrite residual_gap by exact Hd. specialize (Hu i Hi). unfold whole_gap in Hu.
      replace (/ 2 ^ 0) with 1 by (cbn [pow]; rewrite Rinv_1; reflexivity). 
      replace (k_T0 (with_dw k (d u) (w u)) + (k_T1 (with_dw k (d u) (w u)) - k_T0 (with_dw k (d u) (w u))) * 1) with (k_T1 (with_dw k (d u) (w u))) by ring. exact Hu. }
    exact (eq_trans (eq_sym (is_derive_unique _ _ _ D)) (is_derive_unique _ _ _ D0)). }
  assert (Q : veq 6 V (vadd (mv 6 A vd) (mv 3 B vw))).
  { apply (tangents_solve inv c _ (X t) A B V vd vw HI HT).
    - intros i Hi. rewrite (Z i ltac:(lia)). rewrite (ltb6_t i Hi). reflexivity.
    - intros q Hq. rewrite (Z (6 + q)%nat ltac:(lia)). rewrite (ltb6_f (6 + q) ltac:(lia)). reflexivity. }
  intros i Hi. eapply D_eq; [apply HX; lia|]. exact (Q i Hi).
Qed.

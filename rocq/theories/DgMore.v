From Coq Require Import ZArith List Lra Lia FunctionalExtensionality.
From Verif Require Import Base NemlMathModel DgModel DgSpec DgProofs.
From Coq Require Import List.
Import ListNotations.
Open Scope R_scope.

(** ** When the driver returns *)
Lemma det_some : forall A, det A <> 0 <-> la_inv A <> None.
Proof. intro A. unfold la_inv. destruct (Req_EM_T (det A) 0) as [E|E]; split; intro H; try congruence; discriminate. Qed.
Lemma run_total : forall M F tmax n T, (0 < n)%nat -> (forall a b c d e f g h i j k l, lm_update M a b c d e f g h i j k l <> None) ->
  (forall k, (0 < k <= n)%nat -> det (F (INR k * (tmax / INR n))) <> 0) -> exists r, def_grad_driver M F tmax n T = Some r.
Proof.
  intros M F tmax n T N U D. unfold def_grad_driver. destruct n as [|n]; [lia|]. set (dt := tmax / INR (S n)) in *. clearbody dt.
  assert (G : forall m, (m <= S n)%nat -> exists r, dg_loop M F dt T m = Some r).
  { induction m as [|m IH]; intro L; [eexists; reflexivity|]. destruct IH as (x & HX); [lia|]. cbn [dg_loop]. rewrite HX. apply loop_inv in HX as (_ & NW & _).
    unfold dg_pass. rewrite NW. replace (INR m * dt + dt) with (INR (S m) * dt) by (rewrite S_INR; ring).
    destruct (la_inv (F (INR (S m) * dt))) as [V|] eqn:LI; [|exfalso; assert (LJ : det (F (INR (S m) * dt)) <> 0) by (apply D; lia); apply det_some in LJ; congruence]. cbv zeta.
    match goal with |- context [lm_update M ?a ?b ?c ?d ?e ?f ?g ?h ?i ?j ?k ?l] => destruct (lm_update M a b c d e f g h i j k l) as [[[[s y] u] p]|] eqn:E; [|now apply U in E] end.
    eexists. reflexivity. }
  apply G. lia.
Qed.
Lemma run_regular : forall M F tmax n T r, def_grad_driver M F tmax n T = Some r -> forall k, (0 < k <= n)%nat -> det (F (INR k * (tmax / INR n))) <> 0.
Proof.
  intros M F tmax n T r H k K. unfold def_grad_driver in H. destruct n as [|n]; [discriminate|]. apply loop_inv in H as (_ & _ & _ & TM & D). destruct k as [|k]; [lia|].
  destruct (D k) as (_ & V & HV & _); [lia|]. destruct (TM (S k)) as (_ & E); [lia|]. rewrite E in HV. apply det_some. congruence.
Qed.
(** ** Matrices, entry by entry *)
Definition meq (A B : mat) : Prop := forall i j, (i < 3)%nat -> (j < 3)%nat -> A i j = B i j.
Lemma meq_sym : forall A B, meq A B -> meq B A. Proof. intros A B H i j Hi Hj. symmetry. now apply H. Qed.
Lemma meq_trans : forall A B C, meq A B -> meq B C -> meq A C. Proof. intros A B C H K i j Hi Hj. rewrite H, K by assumption. reflexivity. Qed.
Lemma mm_meq : forall A A' B B', meq A A' -> meq B B' -> meq (mm 3 A B) (mm 3 A' B').
Proof. intros A A' B B' H K i j Hi Hj. cbv [mm rsum]. rewrite !H, !K by lia. reflexivity. Qed.
Lemma mm_refl : forall A, meq A A. Proof. intros A i j _ _. reflexivity. Qed.
Lemma mm_one_l : forall A, meq (mm 3 delta A) A. Proof. intros A i j Hi Hj. nine i j Hi Hj; cbv [mm rsum delta Nat.eqb]; ring. Qed.
Lemma mm_one_r : forall A, meq (mm 3 A delta) A. Proof. intros A i j Hi Hj. nine i j Hi Hj; cbv [mm rsum delta Nat.eqb]; ring. Qed.
Lemma assoc : forall A B C, meq (mm 3 (mm 3 A B) C) (mm 3 A (mm 3 B C)). Proof. intros A B C i j _ _. apply mm_assoc. Qed.
Lemma inv_l : forall A V, la_inv A = Some V -> meq (mm 3 V A) delta. Proof. intros A V H i j. now apply inv_left. Qed.
Lemma inv_r : forall A V, la_inv A = Some V -> meq (mm 3 A V) delta. Proof. intros A V H i j. now apply inv_right. Qed.
Lemma inverse_unique : forall A V X, la_inv A = Some V -> meq (mm 3 A X) delta -> meq X V.
Proof.
  intros A V X H K. apply meq_trans with (mm 3 delta X); [apply meq_sym, mm_one_l|]. apply meq_trans with (mm 3 (mm 3 V A) X); [apply mm_meq; [apply meq_sym, inv_l, H|apply mm_refl]|].
  apply meq_trans with (mm 3 V (mm 3 A X)); [apply assoc|]. apply meq_trans with (mm 3 V delta); [apply mm_meq; [apply mm_refl|exact K]|apply mm_one_r].
Qed.
Lemma det_mm : forall A B, det (mm 3 A B) = det A * det B. Proof. intros. unfold det. cbv [mm rsum]. ring. Qed.
Lemma det_delta : det delta = 1. Proof. unfold det. cbv [delta Nat.eqb]. ring. Qed.
Lemma det_meq : forall A B, meq A B -> det A = det B. Proof. intros A B H. unfold det. rewrite !H by lia. reflexivity. Qed.
Lemma mm_minus_l : forall A B C, meq (mm 3 (fun i j => A i j - B i j) C) (fun i j => mm 3 A C i j - mm 3 B C i j). Proof. intros A B C i j _ _. cbv [mm rsum]. ring. Qed.

(** ** Another reference configuration *)
Lemma inc_right : forall F0 F1 G V W F0' F1', la_inv F1 = Some V -> la_inv F1' = Some W -> meq F0' (mm 3 F0 G) -> meq F1' (mm 3 F1 G) -> meq (inc F0' F1' W) (inc F0 F1 V).
Proof.
  intros F0 F1 G V W F0' F1' HV HW E0 E1. assert (GW : meq (mm 3 G W) V).
  { apply (inverse_unique F1 V); [exact HV|]. apply meq_trans with (mm 3 (mm 3 F1 G) W); [apply meq_sym, assoc|]. apply meq_trans with (mm 3 F1' W); [apply mm_meq; [apply meq_sym, E1|apply mm_refl]|now apply inv_r]. }
  unfold inc. apply meq_trans with (mm 3 (mm 3 (fun i j => F1 i j - F0 i j) G) W).
  - apply mm_meq; [|apply mm_refl]. intros i j Hi Hj. rewrite E0, E1 by assumption. cbv [mm rsum]. ring.
  - eapply meq_trans; [apply assoc|]. apply mm_meq; [apply mm_refl|exact GW].
Qed.
Lemma py_sym_meq : forall A B, meq A B -> py_sym (sy A) = py_sym (sy B). Proof. intros A B H. unfold py_sym, sy. rewrite !H by lia. reflexivity. Qed.
Lemma py_skew_meq : forall A B, meq A B -> py_skew (sk A) = py_skew (sk B). Proof. intros A B H. unfold py_skew, sk. rewrite !H by lia. reflexivity. Qed.
Definition same_but_F (G : mat) (a b : option dg) : Prop :=
  match a, b with
  | None, None => True
  | Some x, Some y => dg_now x = dg_now y /\ dg_t x = dg_t y /\ dg_s x = dg_s y /\ dg_D x = dg_D y /\ dg_W x = dg_W y /\ dg_h x = dg_h y /\ dg_u x = dg_u y /\ dg_p x = dg_p y /\ meq (last (dg_F y) matzero) (mm 3 (last (dg_F x) matzero) G)
  | _, _ => False end.
Lemma last_snoc : forall A (l : list A) x d, last (l ++ [x]) d = x. Proof. intros. apply last_last. Qed.
Lemma loop_right : forall M F F' G dt T n, det G <> 0 -> (forall t, meq (F' t) (mm 3 (F t) G)) -> same_but_F G (dg_loop M F dt T n) (dg_loop M F' dt T n).
Proof.
  intros M F F' G dt T n DG E. induction n as [|n IH].
  - cbn. repeat (split; [reflexivity|]). apply E.
  - cbn [dg_loop]. destruct (dg_loop M F dt T n) as [x|], (dg_loop M F' dt T n) as [y|]; cbn in IH; try tauto.
    destruct IH as (A0 & A1 & A2 & A3 & A4 & A5 & A6 & A7 & A8). unfold dg_pass. rewrite <- A0. set (t := dg_now x + dt).
    assert (DD : det (F' t) = det (F t) * det G) by (rewrite <- det_mm; apply det_meq, E).
    destruct (la_inv (F t)) as [V|] eqn:LV.
    + destruct (la_inv (F' t)) as [W|] eqn:LW.
      2:{ exfalso. assert (K : det (F t) <> 0) by (apply det_some; congruence). assert (K2 : det (F' t) <> 0) by (rewrite DD; now apply Rmult_integral_contrapositive). apply det_some in K2. congruence. }
      cbv zeta. pose proof (inc_right _ _ G V W _ _ LV LW A8 (E t)) as I. unfold inc in I.
      pose proof (py_sym_meq _ _ I) as IS. pose proof (py_skew_meq _ _ I) as IW. unfold sy, sk in IS, IW. rewrite IS, IW, <- A1, <- A2, <- A3, <- A4, <- A5, <- A6, <- A7.
      match goal with |- context [lm_update M ?a ?b ?c ?d ?e ?f ?g ?h ?i ?j ?k ?l] => destruct (lm_update M a b c d e f g h i j k l) as [[[[s z] u] p]|] end; [|exact Logic.I].
      cbn. repeat (split; [reflexivity|]). rewrite !last_snoc. apply E.
    + destruct (la_inv (F' t)) as [W|] eqn:LW; [|exact Logic.I].
      exfalso. assert (K : det (F' t) <> 0) by (apply det_some; congruence). assert (K2 : det (F t) = 0) by (destruct (Req_dec (det (F t)) 0) as [Z|Z]; [exact Z|apply det_some in Z; congruence]). rewrite DD, K2 in K. lra.
Qed.
(** the driver, for a model, gradients and any constant regular G: F(t) G gives what F(t) gives *)
Lemma run_reference : forall M F G tmax n T, det G <> 0 ->
  match def_grad_driver M F tmax n T, def_grad_driver M (fun t i j => rsum 3 (fun l => F t i l * G l j)) tmax n T with
  | None, None => True
  | Some x, Some y => dg_t x = dg_t y /\ dg_s x = dg_s y /\ dg_D x = dg_D y /\ dg_W x = dg_W y /\ dg_h x = dg_h y /\ dg_u x = dg_u y /\ dg_p x = dg_p y
  | _, _ => False end.
Proof.
  intros M F G tmax n T DG. unfold def_grad_driver. destruct n as [|n]; [exact I|].
  pose proof (loop_right M F (fun t i j => rsum 3 (fun l => F t i l * G l j)) G (tmax / INR (S n)) T (S n) DG (fun t => mm_refl _)) as H. unfold same_but_F in H.
  destruct (dg_loop M F _ T (S n)), (dg_loop M (fun t i j => rsum 3 (fun l => F t i l * G l j)) _ T (S n)); try exact H. tauto.
Qed.
(** ** Seen by a turned observer *)
Lemma inc_left : forall F0 F1 Q P V W F0' F1', la_inv F1 = Some V -> la_inv F1' = Some W -> meq (mm 3 Q P) delta -> meq F0' (mm 3 Q F0) -> meq F1' (mm 3 Q F1) -> meq (inc F0' F1' W) (mm 3 Q (mm 3 (inc F0 F1 V) P)).
Proof.
  intros F0 F1 Q P V W F0' F1' HV HW QP E0 E1. assert (VW : meq (mm 3 V P) W).
  { apply (inverse_unique F1' W); [exact HW|]. apply meq_trans with (mm 3 (mm 3 Q F1) (mm 3 V P)); [apply mm_meq; [exact E1|apply mm_refl]|].
    eapply meq_trans; [apply assoc|]. apply meq_trans with (mm 3 Q P); [|exact QP]. apply mm_meq; [apply mm_refl|].
    eapply meq_trans; [apply meq_sym, assoc|]. apply meq_trans with (mm 3 delta P); [apply mm_meq; [now apply inv_r|apply mm_refl]|apply mm_one_l]. }
  unfold inc. apply meq_trans with (mm 3 (mm 3 Q (fun i j => F1 i j - F0 i j)) (mm 3 V P)).
  - apply mm_meq; [|apply meq_sym, VW]. intros i j Hi Hj. rewrite E0, E1 by assumption. cbv [mm rsum]. ring.
  - eapply meq_trans; [apply assoc|]. apply mm_meq; [apply mm_refl|]. apply meq_sym, assoc.
Qed.
Lemma run_observer : forall M M' F Q tmax n T r r', (forall i j, (i < 3)%nat -> (j < 3)%nat -> rsum 3 (fun k => Q i k * Q j k) = delta i j) ->
  def_grad_driver M F tmax n T = Some r -> def_grad_driver M' (fun t i j => rsum 3 (fun l => Q i l * F t l j)) tmax n T = Some r' ->
  forall k, (k < n)%nat -> forall i j, (i < 3)%nat -> (j < 3)%nat -> dL r' k i j = rsum 3 (fun a => rsum 3 (fun b => Q i a * dL r k a b * Q j b)).
Proof.
  intros M M' F Q tmax n T r r' O H H' k K i j Hi Hj. unfold def_grad_driver in H, H'. destruct n as [|n]; [discriminate|].
  apply loop_inv in H as (_ & _ & _ & TM & D). apply loop_inv in H' as (_ & _ & _ & TM' & D').
  destruct (dL_inc r k (proj2 (D k K))) as (V & HV & E). destruct (dL_inc r' k (proj2 (D' k K))) as (W & HW & E').
  rewrite E' by assumption. rewrite (inc_left (F_at r k) (F_at r (S k)) Q (fun a b => Q b a) V W _ _ HV HW); try assumption.
  - cbv [mm rsum]. rewrite !E by lia. cbv [rsum]. ring.
  - destruct (TM k) as (_ & A); [lia|]. destruct (TM' k) as (_ & A'); [lia|]. rewrite A, A'. apply mm_refl.
  - destruct (TM (S k)) as (_ & A); [lia|]. destruct (TM' (S k)) as (_ & A'); [lia|]. rewrite A, A'. apply mm_refl.
Qed.

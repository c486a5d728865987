From Coq Require Import ZArith List Lra Lia FunctionalExtensionality.
From Verif Require Import Base NemlMathModel DgModel DgSpec.
From Coq Require Import List.
Import ListNotations.
Open Scope R_scope.

Lemma last_nth : forall A (l : list A) d n, length l = S n -> last l d = nth n l d.
Proof. induction l as [|x l IH]; intros d n H; [discriminate|]. destruct l as [|y l]; cbn in H; [inversion H; reflexivity|]. destruct n as [|n]; [inversion H|]. apply (IH d n). cbn. congruence. Qed.
Lemma nth_old : forall A (l : list A) x d k, (k < length l)%nat -> nth k (l ++ [x]) d = nth k l d.
Proof. intros. now apply app_nth1. Qed.
Lemma nth_new : forall A (l : list A) x d n, length l = n -> nth n (l ++ [x]) d = x.
Proof. intros A l x d n H. rewrite app_nth2 by lia. now rewrite H, Nat.sub_diag. Qed.

(** the lists after n passes *)
Definition lens (n : nat) (r : dg) : Prop := length (dg_t r) = S n /\ length (dg_s r) = S n /\ length (dg_F r) = S n /\ length (dg_D r) = S n /\ length (dg_W r) = S n
  /\ length (dg_h r) = S n /\ length (dg_u r) = S n /\ length (dg_p r) = S n.
Definition inc (F0 F1 V : mat) : mat := mm 3 (fun i j => F1 i j - F0 i j) V.
Definition sy (L : mat) : mat := fun i j => / 2 * (L i j + L j i).
Definition sk (L : mat) : mat := fun i j => / 2 * (L i j - L j i).
Definition started (M : ldmodel) (r : dg) : Prop := time_at r 0 = 0 /\ stress_at r 0 = vzero /\ D_at r 0 = vzero /\ W_at r 0 = vzero /\ store_at r 0 = lm_store M /\ energy_at r 0 = 0 /\ dissipation_at r 0 = 0.
Definition one_step (M : ldmodel) (T : R) (r : dg) (k : nat) : Prop :=
  lm_update M (D_at r (S k)) (D_at r k) (W_at r (S k)) (W_at r k) T T (time_at r (S k)) (time_at r k) (stress_at r k) (store_at r k) (energy_at r k) (dissipation_at r k)
  = Some (stress_at r (S k), store_at r (S k), energy_at r (S k), dissipation_at r (S k)).
Definition stepped (r : dg) (k : nat) : Prop := exists V, la_inv (F_at r (S k)) = Some V
  /\ D_at r (S k) = vadd (D_at r k) (py_sym (sy (inc (F_at r k) (F_at r (S k)) V))) /\ W_at r (S k) = vadd (W_at r k) (py_skew (sk (inc (F_at r k) (F_at r (S k)) V))).
Definition dginv (M : ldmodel) (F : R -> mat) (dt T : R) (n : nat) (r : dg) : Prop :=
  lens n r /\ dg_now r = INR n * dt /\ started M r /\ (forall k, (k <= n)%nat -> time_at r k = INR k * dt /\ F_at r k = F (INR k * dt)) /\ (forall k, (k < n)%nat -> one_step M T r k /\ stepped r k).
Lemma pass_inv : forall M F dt T n x r, dginv M F dt T n x -> dg_pass M F dt T x = Some r -> dginv M F dt T (S n) r
  /\ (forall k, (k <= n)%nat -> D_at r k = D_at x k /\ W_at r k = W_at x k /\ stress_at r k = stress_at x k /\ store_at r k = store_at x k /\ energy_at r k = energy_at x k /\ dissipation_at r k = dissipation_at x k).
Proof.
  intros M F dt T n x r (LE & NW & ST & TM & SS) H. unfold dg_pass in H. destruct (la_inv (F (dg_now x + dt))) as [V|] eqn:LI; [|discriminate]. cbv zeta in H.
  destruct LE as (L1 & L2 & L3 & L4 & L5 & L6 & L7 & L8).
  rewrite (last_nth _ _ _ n L1), (last_nth _ _ _ n L2), (last_nth _ _ _ n L3), (last_nth _ _ _ n L4), (last_nth _ _ _ n L5), (last_nth _ _ _ n L6), (last_nth _ _ _ n L7), (last_nth _ _ _ n L8) in H.
  fold (time_at x n) (stress_at x n) (F_at x n) (D_at x n) (W_at x n) (store_at x n) (energy_at x n) (dissipation_at x n) in H.
  change (mm 3 (fun i j => F (dg_now x + dt) i j - F_at x n i j) V) with (inc (F_at x n) (F (dg_now x + dt)) V) in H.
  set (L := inc (F_at x n) (F (dg_now x + dt)) V) in H.
  change (fun i j => / 2 * (L i j + L j i)) with (sy L) in H. change (fun i j => / 2 * (L i j - L j i)) with (sk L) in H.
  match type of H with match ?e with _ => _ end = _ => destruct e as [[[[s h] u] p]|] eqn:UP; [|discriminate] end.
  injection H as <-.
  assert (NN : dg_now x + dt = INR (S n) * dt) by (rewrite NW, S_INR; ring).
  match goal with |- dginv _ _ _ _ _ ?r /\ _ => set (y := r) end.
  assert (O : forall k, (k <= n)%nat -> time_at y k = time_at x k /\ F_at y k = F_at x k /\ D_at y k = D_at x k /\ W_at y k = W_at x k /\ stress_at y k = stress_at x k /\ store_at y k = store_at x k /\ energy_at y k = energy_at x k /\ dissipation_at y k = dissipation_at x k).
  { intros k K. unfold y, time_at, F_at, D_at, W_at, stress_at, store_at, energy_at, dissipation_at. cbn [dg_t dg_s dg_F dg_D dg_W dg_h dg_u dg_p]. rewrite !nth_old by lia. repeat split; reflexivity. }
  assert (N : time_at y (S n) = dg_now x + dt /\ F_at y (S n) = F (dg_now x + dt) /\ D_at y (S n) = vadd (D_at x n) (py_sym (sy L)) /\ W_at y (S n) = vadd (W_at x n) (py_skew (sk L))
    /\ stress_at y (S n) = s /\ store_at y (S n) = h /\ energy_at y (S n) = u /\ dissipation_at y (S n) = p).
  { unfold time_at, F_at, D_at, W_at, stress_at, store_at, energy_at, dissipation_at. unfold y at 1 2 3 4 5 6 7 8. cbn [dg_t dg_s dg_F dg_D dg_W dg_h dg_u dg_p]. rewrite !nth_new by assumption. repeat split; reflexivity. }
  destruct N as (N1 & N2 & N3 & N4 & N5 & N6 & N7 & N8).
  split; [|intros k K; destruct (O k K) as (_ & _ & O3 & O4 & O5 & O6 & O7 & O8); repeat split; assumption].
  split; [|split; [|split; [|split]]].
  - unfold lens, y. cbn [dg_t dg_s dg_F dg_D dg_W dg_h dg_u dg_p]. rewrite !app_length. cbn [length]. repeat split; lia.
  - unfold y. cbn [dg_now]. exact NN.
  - destruct ST as (S1 & S2 & S3 & S4 & S5 & S6 & S7). destruct (O 0%nat) as (O1 & O2 & O3 & O4 & O5 & O6 & O7 & O8); [lia|]. unfold started. rewrite O1, O3, O4, O5, O6, O7, O8. repeat split; assumption.
  - intros k K. destruct (Nat.eq_dec k (S n)) as [->|K2]; [rewrite N1, N2, NN; split; reflexivity|]. destruct (O k) as (O1 & O2 & _); [lia|]. rewrite O1, O2. apply TM. lia.
  - intros k K. destruct (Nat.eq_dec k n) as [->|K2].
    + destruct (O n (le_n _)) as (O1 & O2 & O3 & O4 & O5 & O6 & O7 & O8). split.
      * unfold one_step. rewrite N1, N3, N4, N5, N6, N7, N8, O1, O3, O4, O5, O6, O7, O8. exact UP.
      * exists V. rewrite N2, N3, N4, O2, O3, O4. split; [exact LI|]. split; reflexivity.
    + destruct (O k) as (O1 & O2 & O3 & O4 & O5 & O6 & O7 & O8); [lia|]. destruct (O (S k)) as (P1 & P2 & P3 & P4 & P5 & P6 & P7 & P8); [lia|].
      destruct (SS k) as (A & B); [lia|]. unfold one_step, stepped. rewrite O1, O2, O3, O4, O5, O6, O7, O8, P1, P2, P3, P4, P5, P6, P7, P8. split; assumption.
Qed.
Lemma loop_inv : forall M F dt T n r, dg_loop M F dt T n = Some r -> dginv M F dt T n r.
Proof.
  induction n as [|n IH]; intros r H.
  - cbn in H. injection H as <-. split; [|split; [|split; [|split]]].
    + cbn. repeat split; reflexivity.
    + cbn. ring.
    + repeat split; reflexivity.
    + intros k K. replace k with 0%nat by lia. unfold time_at, F_at. cbn. rewrite Rmult_0_l. split; reflexivity.
    + intros k K. lia.
  - cbn in H. destruct (dg_loop M F dt T n) as [x|] eqn:E; [|discriminate]. exact (proj1 (pass_inv _ _ _ _ _ _ _ (IH x eq_refl) H)).
Qed.

(** the lists: their lengths, times and gradients, the start, and every step one call of the model *)
Lemma run_spec : forall M F tmax n T r, def_grad_driver M F tmax n T = Some r ->
  (length (dg_t r) = S n /\ length (dg_s r) = S n /\ length (dg_F r) = S n /\ length (dg_D r) = S n /\ length (dg_W r) = S n /\ length (dg_h r) = S n /\ length (dg_u r) = S n /\ length (dg_p r) = S n)
  /\ (forall k, (k <= n)%nat -> time_at r k = INR k * tmax / INR n /\ F_at r k = F (time_at r k))
  /\ (stress_at r 0 = vzero /\ D_at r 0 = vzero /\ W_at r 0 = vzero /\ store_at r 0 = lm_store M /\ energy_at r 0 = 0 /\ dissipation_at r 0 = 0)
  /\ (forall k, (k < n)%nat -> lm_update M (D_at r (S k)) (D_at r k) (W_at r (S k)) (W_at r k) T T (time_at r (S k)) (time_at r k) (stress_at r k) (store_at r k) (energy_at r k) (dissipation_at r k)
       = Some (stress_at r (S k), store_at r (S k), energy_at r (S k), dissipation_at r (S k))).
Proof.
  intros M F tmax n T r H. unfold def_grad_driver in H. destruct n as [|n]; [discriminate|]. apply loop_inv in H as (A & _ & (_ & B) & C & D). split; [exact A|]. split; [|split; [exact B|]].
  - intros k K. destruct (C k K) as (C1 & C2). rewrite C1, C2. split; [|reflexivity]. unfold Rdiv. ring.
  - intros k K. exact (proj1 (D k K)).
Qed.

(** ** The increments *)
Ltac nine i j Hi Hj := destruct i as [|[|[|i]]]; [| | |lia]; (destruct j as [|[|[|j]]]; [| | |lia]).
Ltac ent := cbv [mm rsum delta Nat.eqb nx Nat.mul Nat.add].
Lemma inv_left : forall A V, la_inv A = Some V -> forall i j, (i < 3)%nat -> (j < 3)%nat -> mm 3 V A i j = delta i j.
Proof.
  intros A V H i j Hi Hj. unfold la_inv in H. destruct (Req_EM_T (det A) 0) as [|N]; [discriminate|]. injection H as <-. unfold det in *. nine i j Hi Hj; ent; field; exact N.
Qed.
Lemma inv_right : forall A V, la_inv A = Some V -> forall i j, (i < 3)%nat -> (j < 3)%nat -> mm 3 A V i j = delta i j.
Proof.
  intros A V H i j Hi Hj. unfold la_inv in H. destruct (Req_EM_T (det A) 0) as [|N]; [discriminate|]. injection H as <-. unfold det in *. nine i j Hi Hj; ent; field; exact N.
Qed.
Lemma sqrt2_nz : sqrt 2 <> 0. Proof. intro H. apply sqrt_eq_0 in H; lra. Qed.
Lemma rebuild : forall L i j, (i < 3)%nat -> (j < 3)%nat -> gradient (py_sym (sy L)) (py_skew (sk L)) i j = L i j.
Proof. intros L i j Hi Hj. pose proof sqrt2_nz. nine i j Hi Hj; unfold gradient, py_sym, py_skew, sy, sk, vlist, r2; cbn [Nat.mul Nat.add usym uskew nth]; unfold r2; field; assumption. Qed.
Lemma gradient_ext : forall d w d' w', (forall k, d k = d' k) -> (forall k, w k = w' k) -> forall i j, gradient d w i j = gradient d' w' i j.
Proof. intros d w d' w' H K i j. assert (d = d') by (apply functional_extensionality; exact H). assert (w = w') by (apply functional_extensionality; exact K). now subst. Qed.
Lemma mm_assoc : forall A B C i j, mm 3 (mm 3 A B) C i j = mm 3 A (mm 3 B C) i j.
Proof. intros. cbv [mm rsum]. ring. Qed.
Lemma inc_back : forall F0 F1 V, la_inv F1 = Some V -> forall i j, (i < 3)%nat -> (j < 3)%nat -> F1 i j - mm 3 (inc F0 F1 V) F1 i j = F0 i j.
Proof.
  intros F0 F1 V H i j Hi Hj. unfold inc. rewrite mm_assoc. pose proof (inv_left _ _ H) as IL. unfold mm at 1. cbv [rsum].
  rewrite !IL by lia. nine i j Hi Hj; cbv [delta Nat.eqb]; ring.
Qed.
Lemma dL_inc : forall r k, stepped r k -> exists V, la_inv (F_at r (S k)) = Some V /\ forall i j, (i < 3)%nat -> (j < 3)%nat -> dL r k i j = inc (F_at r k) (F_at r (S k)) V i j.
Proof.
  intros r k (V & H & HD & HW). exists V. split; [exact H|]. intros i j Hi Hj. rewrite <- (rebuild (inc (F_at r k) (F_at r (S k)) V) i j Hi Hj). unfold dL. apply gradient_ext; intro m.
  - rewrite HD. unfold vsub, vadd. ring.
  - rewrite HW. unfold vsub, vadd. ring.
Qed.
(** the gradients can be had back from the recorded strains and spins: (1 - dL) F_{k+1} = F_k *)
Lemma increments : forall M F tmax n T r, def_grad_driver M F tmax n T = Some r -> forall k, (k < n)%nat -> forall i j, (i < 3)%nat -> (j < 3)%nat ->
  F_at r (S k) i j - rsum 3 (fun l => dL r k i l * F_at r (S k) l j) = F_at r k i j.
Proof.
  intros M F tmax n T r H k K i j Hi Hj. unfold def_grad_driver in H. destruct n as [|n]; [discriminate|]. apply loop_inv in H as (_ & _ & _ & _ & D).
  destruct (dL_inc r k (proj2 (D k K))) as (V & HV & E). rewrite <- (inc_back (F_at r k) _ V HV i j Hi Hj). unfold mm. cbv [rsum]. rewrite !E by lia. reflexivity.
Qed.

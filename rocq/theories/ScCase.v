(** Concrete single crystals. *)
From Verif Require Import Base.
From Verif Require Import Diff.
From Verif Require Import NemlMathModel.
From Verif Require Import NemlMathSpec.
From Verif Require Import NemlMathProofs.
From Verif Require Import SolverModel.
From Verif Require Import PlastSpec.
From Verif Require Import PlastProofs.
From Verif Require Import RotModel.
From Verif Require Import RotSpec.
From Verif Require Import RotProofs.
From Verif Require Import RotMore.
From Verif Require Import TensorModel.
From Verif Require Import CpModel.
From Verif Require Import CpSpec.
From Verif Require Import CpProofs.
From Verif Require Import CpFacts.
From Verif Require Import ScModel.
From Verif Require Import ScSpec.
From Verif Require Import ScProofs.
From Verif Require Import ScMore.
From Verif Require Import ScLast.
From Coq Require Import List ZArith Lia Lra.

(** An inversion that succeeds on the identity only. *)
Definition id_inv (n : nat) (J : mat) : option mat :=
  if forallb (fun i => forallb (fun j => if Req_EM_T (J i j) (delta i j) then true else false) (seq 0 n)) (seq 0 n) then Some delta else None.
Lemma id_inv_sound n J K : id_inv n J = Some K -> left_inverse n K J.
Proof.
  unfold id_inv. destruct (forallb _ _) eqn:E; [|discriminate]. intros H; injection H as <-. intros i j Hi Hj.
  rewrite forallb_forall in E. specialize (E i (proj2 (in_seq n 0 i) ltac:(lia))). rewrite forallb_forall in E. specialize (E j (proj2 (in_seq n 0 j) ltac:(lia))).
  destruct (Req_EM_T (J i j) (delta i j)) as [EJ|]; [|discriminate]. unfold mm. rewrite (rsum_delta n i (fun k => J k j) Hi). exact EJ.
Qed.
Lemma id_inv_ok n J : (forall i j, (i < n)%nat -> (j < n)%nat -> J i j = delta i j) -> id_inv n J = Some delta.
Proof.
  intros H. unfold id_inv. replace (forallb _ _) with true; [reflexivity|]. symmetry. apply forallb_forall. intros i Hi. apply forallb_forall. intros j Hj.
  apply in_seq in Hi. apply in_seq in Hj. destruct (Req_EM_T (J i j) (delta i j)) as [|N]; [reflexivity|]. exfalso. apply N. apply H; lia.
Qed.

Lemma loop_ok lsolve inv c o k pred sd : (forall s h, exists x, sub_solve lsolve c o (sub_trial c k pred sd s h) = Some x /\ sc_tangents inv c (sub_trial c k pred sd s h) x <> None) ->
  forall fuel progress cur s h out, sub_loop fuel lsolve inv c o k pred progress cur sd s h out <> Some None.
Proof.
  intros HA. induction fuel as [|fuel IH]; intros progress cur s h out; cbn [sub_loop]; [discriminate|].
  destruct (Nat.ltb progress (2 ^ so_max o)); [|discriminate]. destruct (HA s h) as (x & -> & HT).
  destruct (Nat.eqb _ _); [|apply IH]. destruct (sc_tangents inv c (sub_trial c k pred sd s h) x) as [[A B]|]; [|contradiction]. apply IH.
Qed.
Lemma update_ok lsolve inv c o k : (so_force o <= so_max o)%nat -> so_pred o = true ->
  (forall s h, exists x, sub_solve lsolve c o (sub_trial c k true (so_force o) s h) = Some x /\ sc_tangents inv c (sub_trial c k true (so_force o) s h) x <> None) ->
  exists r, sc_update (2 ^ so_max o + so_max o + 1) lsolve inv c o k = Some (Some r).
Proof.
  intros Hf Hp HA. rewrite (proj1 (dispatch _ lsolve inv c o k) (or_introl Hp)).
  pose proof (attempt_ends lsolve inv c o k true Hf) as E. unfold attempt in *.
  pose proof (loop_ok lsolve inv c o k true (so_force o) HA (2 ^ so_max o + so_max o + 1) 0 (first_inc o) (k_s k) (k_h k) None) as L.
  destruct (sub_loop _ _ _ _ _ _ _ _ _ _ _ _ _) as [[[[s h] out]|]|]; [eexists; reflexivity|contradiction|contradiction].
Qed.
Lemma elastic_J C S k sd s h x i j : veq 3 (k_W k) vzero -> (i < 6)%nat -> (j < 6)%nat ->
  sc_J (elastic_crystal C S) (sub_trial (elastic_crystal C S) k true sd s h) x i j = delta i j.
Proof.
  intros HW Hi Hj. unfold sc_J. rewrite (ltb6_t i Hi), (ltb6_t j Hj).
  replace (sk_ds _ _ _ _ i j) with 0; [ring|]. symmetry. unfold sk_ds. unfold mm. rewrite (rsum_ext 6 _ (fun _ => 0)); [apply rsum_0|].
  intros l Hl. rewrite D2_net, D3_net by assumption. unfold t_im, sub_trial, sk_O, sk_decouple. cbn [t_T t_Q t_f f_spin f_C f_S elastic_crystal c_im c_C c_S no_inelasticity i_dp_s i_wp_s i_wp].
  rewrite (net_ext _ (fun a => flat 6 (S (k_T0 k + (k_T1 k - k_T0 k) * / 2 ^ sd) (k_q k)) a j) (vadd _ _) (fun _ => 0) l); [| reflexivity | | exact Hl].
  - rewrite net_0_r by exact Hl. unfold mzero2. rewrite net_0_r by exact Hl. ring.
  - intros a Ha. unfold vadd. rewrite spin_value by exact Ha. rewrite HW by exact Ha. cbn [i_wp no_inelasticity]. unfold vzero2, vzero. ring.
Qed.
Lemma elastic_ok lsolve C S o k : (so_force o <= so_max o)%nat -> (1 <= miter (so_prm o))%Z -> 0 < atol (so_prm o) -> so_pred o = true -> veq 3 (k_w1 k) (k_w0 k) ->
  exists r, sc_update (2 ^ so_max o + so_max o + 1) lsolve id_inv (elastic_crystal C S) o k = Some (Some r).
Proof.
  intros Hf Hm Ha Hp HW. apply update_ok; [exact Hf|exact Hp|]. intros s h. eexists. split.
  - apply solve_at_once; [exact Hm|exact Ha|]. apply elastic_residual. apply no_W. exact HW.
  - unfold sc_tangents. cbn [elastic_crystal c_n]. fold (elastic_crystal C S). rewrite id_inv_ok; [discriminate|]. intros i j Hi Hj. apply elastic_J; [apply no_W; exact HW|exact Hi|exact Hj].
Qed.

(** Unit stiffness, a stretch of 1 along the first axis in unit time. *)
Definition unit6 : R -> quat -> vec := fun _ _ p => delta (p / 6) (p mod 6).
Definition stretch : vec := fun i => match i with 0%nat => 1 | _ => 0 end.
Definition pull (s0 : vec) : call := {| k_d1 := stretch; k_d0 := vzero; k_w1 := vzero; k_w0 := vzero; k_T1 := 300; k_T0 := 300; k_t1 := 1; k_t0 := 0;
  k_s := s0; k_h := vzero; k_q := Quat 1 0 0 0; k_u := 0; k_p := 0 |}.
Definition opts (mx fo : nat) : scopt := {| so_prm := {| rtol := 1 / 1000; atol := 1 / 1000; miter := 30; linesearch := false |}; so_max := mx; so_force := fo;
  so_pred := true; so_fallback := true; so_first := false; so_rot := true |}.
Definition cube : crystal := elastic_crystal unit6 unit6.

Lemma unit6_mv x i : (i < 6)%nat -> mv 6 (flat 6 (unit6 0 qzero)) x i = x i.
Proof. intros Hi. unfold mv, flat, unit6, delta. cases6 i Hi; cbn; ring. Qed.

Lemma subdivision_loses : exists r, sc_update 4 (fun _ _ => None) id_inv cube (opts 1 1) (pull vzero) = Some (Some r) /\
  r_s r 0%nat = 1 / 2 /\ mv 6 (flat 6 (c_C cube 300 (Quat 1 0 0 0))) (inc_d (pull vzero)) 0%nat = 1.
Proof.
  destruct (elastic_ok (fun _ _ => None) unit6 unit6 (opts 1 1) (pull vzero)) as (r & Hr); [cbn; lia|cbn; lia|cbn; lra|reflexivity|intros l _; reflexivity|].
  exists r. split; [exact Hr|]. split.
  - rewrite (elastic_stress 4 (fun _ _ => None) id_inv unit6 unit6 (opts 1 1) (pull vzero) r) with (i := 0%nat); [|cbn; lia|cbn; lia|cbn; lra|reflexivity|cbn; lra|intros l _; reflexivity|exact Hr|lia].
    change (unit6 (k_T0 (pull vzero) + (k_T1 (pull vzero) - k_T0 (pull vzero)) / 2 ^ so_force (opts 1 1)) (k_q (pull vzero))) with (unit6 0 qzero). rewrite unit6_mv by lia. cbn. unfold vzero, inc_d. cbn. unfold vzero. field.
  - change (c_C cube 300 (Quat 1 0 0 0)) with (unit6 0 qzero). rewrite unit6_mv by lia. cbn. unfold inc_d. cbn. unfold vzero. ring.
Qed.
(** An elastic crystal stretched without any spin is turned by half a turn. *)
Lemma stretch_turns : exists r, sc_update 2 (fun _ _ => None) id_inv cube (opts 0 0) (pull vzero) = Some (Some r) /\
  veq 3 (lattice_turn cube (pull vzero) r) vzero /\ r_s r 0%nat = 1 /\
  apply_v (k_q (pull vzero)) stretch 0%nat = 1 /\ apply_v (r_q r) stretch 0%nat = -1.
Proof.
  destruct (elastic_ok (fun _ _ => None) unit6 unit6 (opts 0 0) (pull vzero)) as (r & Hr); [cbn; lia|cbn; lia|cbn; lra|reflexivity|intros l _; reflexivity|].
  assert (Z : veq 3 (lattice_turn cube (pull vzero) r) vzero).
  { intros l Hl. unfold lattice_turn, inc_w. cbn. unfold vzero2, vzero. ring. }
  assert (E1 : apply_v (k_q (pull vzero)) stretch 0%nat = 1) by (unfold apply_v, to_matrix; cbn; ring).
  exists r. split; [exact Hr|]. split; [exact Z|]. split; [|split; [exact E1|]].
  - rewrite (elastic_stress 2 (fun _ _ => None) id_inv unit6 unit6 (opts 0 0) (pull vzero) r) with (i := 0%nat); [|cbn; lia|cbn; lia|cbn; lra|reflexivity|cbn; lra|intros l _; reflexivity|exact Hr|lia].
    change (unit6 (k_T0 (pull vzero) + (k_T1 (pull vzero) - k_T0 (pull vzero)) / 2 ^ so_force (opts 0 0)) (k_q (pull vzero))) with (unit6 0 qzero). rewrite unit6_mv by lia. cbn. unfold vzero, inc_d. cbn. unfold vzero. field.
  - rewrite (rotation_none _ _ _ cube (opts 0 0) (pull vzero) r stretch 0%nat eq_refl eq_refl eq_refl ltac:(cbn; lra) Hr ltac:(lia) Z). rewrite E1. cbn. ring.
Qed.
(** The energy of a stretch from a prestress: the prestress is left out. *)
Lemma energy_lost : exists r, sc_update 2 (fun _ _ => None) id_inv cube (opts 0 0) (pull stretch) = Some (Some r) /\
  trapezoid (r_s r) (k_s (pull stretch)) stretch vzero = 3 / 2 /\ r_u r = 1 / 2.
Proof.
  destruct (elastic_ok (fun _ _ => None) unit6 unit6 (opts 0 0) (pull stretch)) as (r & Hr); [cbn; lia|cbn; lia|cbn; lra|reflexivity|intros l _; reflexivity|].
  assert (E : forall i, (i < 6)%nat -> r_s r i = stretch i + stretch i).
  { intros i Hi. rewrite (elastic_stress 2 (fun _ _ => None) id_inv unit6 unit6 (opts 0 0) (pull stretch) r) with (i := i); [|cbn; lia|cbn; lia|cbn; lra|reflexivity|cbn; lra|intros l _; reflexivity|exact Hr|exact Hi].
    change (unit6 (k_T0 (pull stretch) + (k_T1 (pull stretch) - k_T0 (pull stretch)) / 2 ^ so_force (opts 0 0)) (k_q (pull stretch))) with (unit6 0 qzero). rewrite unit6_mv by exact Hi. cbn. unfold inc_d. cbn. unfold vzero. field. }
  exists r. split; [exact Hr|].
  assert (Tr : trapezoid (r_s r) (k_s (pull stretch)) stretch vzero = 3 / 2).
  { unfold trapezoid. cbn [rsum]. rewrite !E by lia. cbn. unfold vzero. field. }
  split; [exact Tr|]. rewrite (energy_value _ _ _ cube (opts 0 0) (pull stretch) r (le_n 0) Hr).
  change (k_d1 (pull stretch)) with stretch. change (k_d0 (pull stretch)) with vzero. rewrite Tr. cbn. unfold vzero. field.
Qed.
(** No dissipation in an elastic crystal. *)
Lemma elastic_no_dissipation fuel lsolve inv C S o k r : so_force o = 0%nat -> (1 <= miter (so_prm o))%Z -> 0 < atol (so_prm o) -> so_pred o = true -> so_rot o = false ->
  k_t1 k <> k_t0 k -> veq 3 (k_w1 k) (k_w0 k) -> k_T1 k = k_T0 k ->
  left_inverse 6 (flat 6 (S (k_T1 k) (k_q k))) (flat 6 (C (k_T1 k) (k_q k))) ->
  sc_update fuel lsolve inv (elastic_crystal C S) o k = Some (Some r) -> r_p r = k_p k.
Proof.
  intros Hf Hm Ha Hp Hr Hd HW HT HI H. assert (HL : (so_force o <= so_max o)%nat) by lia.
  pose proof (work_value _ _ _ _ _ _ _ HL H) as W. pose proof (energy_value _ _ _ _ _ _ _ HL H) as U.
  pose proof (elastic_stress _ _ _ C S o k r HL Hm Ha Hp Hd HW H) as E. rewrite Hf in E. cbn [pow] in E.
  rewrite (rotation_kept _ _ _ _ _ _ _ HL Hr H) in W. cbn [c_S elastic_crystal] in W. rewrite <- HT in W.
  assert (Q : rsum 6 (fun i => (r_s r i - k_s k i) * (mv 6 (flat 6 (S (k_T1 k) (k_q k))) (r_s r) i - mv 6 (flat 6 (S (k_T1 k) (k_q k))) (k_s k) i)) = rsum 6 (fun i => (r_s r i - k_s k i) * inc_d k i)).
  { apply rsum_ext. intros i Hi. f_equal.
    transitivity (mv 6 (flat 6 (S (k_T1 k) (k_q k))) (mv 6 (flat 6 (C (k_T1 k) (k_q k))) (inc_d k)) i).
    - transitivity (mv 6 (flat 6 (S (k_T1 k) (k_q k))) (fun j => r_s r j - k_s k j) i); [unfold mv; rewrite <- rsum_minus; apply rsum_ext; intros; ring|].
      apply mv_vec_ext. intros j Hj. rewrite E by exact Hj. replace (k_T0 k + (k_T1 k - k_T0 k) / 1) with (k_T1 k) by field. field.
    - symmetry. apply (left_solve 6 _ _ (inc_d k) _ HI); [intros j Hj; reflexivity|exact Hi]. }
  rewrite Q in W. rewrite U in W. unfold trapezoid, inc_d in W. cbn [rsum] in W. lra.
Qed.

(** The hypotheses of the tangent theorem met by a whole call. *)
Definition pulls : R -> vec := fun u i => match i with 0%nat => u | _ => 0 end.
Definition pulled : R -> vec := fun u => sc_init (sub_trial cube (with_dw (pull vzero) (pulls u) vzero) true 0 vzero vzero).
Lemma pulled_value u i : (i < 6)%nat -> pulled u i = pulls u i.
Proof.
  intros Hi. unfold pulled, sc_init. rewrite (ltb6_t i Hi). unfold sub_trial. cbn [t_S]. unfold vadd, sk_increment.
  change (c_C cube _ _) with (unit6 0 qzero). rewrite unit6_mv by exact Hi. unfold k_D.
  destruct (Req_EM_T (k_dt (with_dw (pull vzero) (pulls u) vzero)) 0) as [Z|N]; [exfalso; unfold k_dt in Z; cbn in Z; lra|].
  unfold k_dt. cbn. unfold vzero. field.
Qed.
Lemma tangent_case : exists r A B, attempt 2 (fun _ _ => None) id_inv cube (opts 0 0) (pull vzero) true = Some (Some r) /\ r_AB r = Some (A, B) /\
  sub_solve (fun _ _ => None) cube (opts 0 0) (sub_trial cube (pull vzero) true 0 (k_s (pull vzero)) (k_h (pull vzero))) <> None /\
  (forall n J K, id_inv n J = Some K -> left_inverse n K J) /\ inelastic_exact (c_im cube 300 (Quat 1 0 0 0)) (fun _ _ => True) /\
  pulls 1 = k_d1 (pull vzero) /\ pulled 1 = r_s r /\ path 6 pulls 1 stretch /\ path (6 + c_n cube) pulled 1 stretch /\
  locally 1 (fun u => veq (6 + c_n cube) (whole_gap cube (with_dw (pull vzero) (pulls u) vzero) (pulled u)) vzero).
Proof.
  assert (E1 : pulls 1 = k_d1 (pull vzero)) by reflexivity.
  assert (EW : with_dw (pull vzero) (pulls 1) vzero = pull vzero) by reflexivity.
  assert (HS : sub_solve (fun _ _ => None) cube (opts 0 0) (sub_trial cube (pull vzero) true 0 (k_s (pull vzero)) (k_h (pull vzero))) = Some (pulled 1)).
  { apply solve_at_once; [cbn; lia|cbn; lra|]. apply elastic_residual. apply no_W. intros l _; reflexivity. }
  destruct (elastic_ok (fun _ _ => None) unit6 unit6 (opts 0 0) (pull vzero)) as (r & Hr); [cbn; lia|cbn; lia|cbn; lra|reflexivity|intros l _; reflexivity|].
  rewrite (proj1 (dispatch _ (fun _ _ => None) id_inv (elastic_crystal unit6 unit6) (opts 0 0) (pull vzero)) (or_introl eq_refl)) in Hr.
  destruct (attempt_whole _ _ _ cube (opts 0 0) (pull vzero) true r (pulled 1) eq_refl HS Hr) as (Er & _ & A & B & _ & EA & _).
  assert (PP : path 6 pulls 1 stretch).
  { intros i Hi. cases6 i Hi; cbn [pulls stretch]; first [apply D_id|apply (D_const 0)]. }
  exists r, A, B. split; [exact Hr|]. split; [exact EA|]. split; [rewrite HS; discriminate|]. split; [exact id_inv_sound|]. split; [exact no_inelasticity_exact|].
  split; [exact E1|]. split; [symmetry; exact Er|]. split; [exact PP|]. split.
  - intros i Hi. change (6 + c_n cube)%nat with 6%nat in Hi. apply (D_ext (fun u => pulls u i)); [intros u; symmetry; apply pulled_value; exact Hi|apply PP; exact Hi].
  - apply filter_forall. intros u i Hi. rewrite <- (gap_whole cube (with_dw (pull vzero) (pulls u) vzero) (pulled u) i). rewrite <- (residual_gap cube (with_dw (pull vzero) (pulls u) vzero) true) by (cbn; lra).
    apply elastic_residual; [|exact Hi]. apply no_W. intros l _; reflexivity.
Qed.

(** C16-C18, C54: elasticity. *)
From Coq Require Import String List.
From Verif Require Import Base.
From Verif Require Import Diff.
From Verif Require Import NemlMathModel.
From Verif Require Import NemlMathSpec.
From Verif Require Import NemlMathProofs.
From Verif Require Import ElasticModel.
From Verif Require Import ElasticSpec.
From Verif Require Import ElasticProofs.
Import ListNotations.
Local Open Scope string_scope.

(** ** C16: compliance is the inverse of stiffness, both symmetric; C e = K tr(e) I + 2 G dev(e) *)
Theorem C16_isotropic_inverse : forall o T G K, get_GK o T = Some (G, K) -> G <> 0 -> K <> 0 ->
  exists C S, iso_C o T = Some C /\ iso_S o T = Some S /\
  forall i j, (i < 6)%nat -> (j < 6)%nat ->
    mm 6 (flat 6 C) (flat 6 S) i j = delta i j /\ mm 6 (flat 6 S) (flat 6 C) i j = delta i j /\
    flat 6 C i j = flat 6 C j i /\ flat 6 S i j = flat 6 S j i.
Proof.
  intros o T G K E HG HK. exists (C_calc G K), (S_calc G K). unfold iso_C, iso_S. rewrite E. split; [reflexivity|]. split; [reflexivity|].
  intros i j Hi Hj. destruct (CS_inverse G K HG HK i j Hi Hj) as [A B]. destruct (C_sym G K i j Hi Hj) as [P Q].
  split; [exact B|]. split; [exact A|]. split; [exact P | exact Q].
Qed.
Print Assumptions C16_isotropic_inverse.
Theorem C16_isotropic_action : forall o T G K e, get_GK o T = Some (G, K) ->
  exists C, iso_C o T = Some C /\ forall i j, (i < 3)%nat -> (j < 3)%nat ->
  t2 (usym (mv 6 (flat 6 C) e)) i j = K * tr2 (usym e) * delta i j + 2 * G * (t2 (usym e) i j - tr2 (usym e) / 3 * delta i j).
Proof.
  intros o T G K e E. exists (C_calc G K). unfold iso_C. rewrite E. split; [reflexivity|]. intros. apply C_acts; assumption.
Qed.
Print Assumptions C16_isotropic_action.
(** a cubic stiffness has an inverse under the usual stability conditions, and invert_mat
    can return only one matrix *)
Theorem C16_cubic_inverse : forall C1 C2 C3, C1 - C2 <> 0 -> C1 + 2 * C2 <> 0 -> C3 <> 0 ->
  exists S, inverse6 S (cubic_fill C1 C2 C3) /\
  forall S', inverse6 S' (cubic_fill C1 C2 C3) -> forall i j, (i < 6)%nat -> (j < 6)%nat -> flat 6 S' i j = flat 6 S i j.
Proof.
  intros C1 C2 C3 H1 H2 H3. destruct (cubic_inverse_exists C1 C2 C3 H1 H2 H3) as [S HS]. exists S. split; [exact HS|].
  intros S' HS'. exact (inverse_unique S' S _ HS' HS).
Qed.
Print Assumptions C16_cubic_inverse.
Example C16_demo : exists o, make_iso (fun T => 150000 - 10 * T) (fun _ => 3 / 10) "youngs" "poissons" = Some o /\
  exists G K, get_GK o 300 = Some (G, K) /\ G <> 0 /\ K <> 0.
Proof.
  eexists. split; [reflexivity|]. do 2 eexists. split; [reflexivity|]. cbn [iso_m1 iso_m2]. split; lra.
Qed.

(** ** C17: modulus pairs *)
(** any accepted pair describing an admissible material gives that material's G and K, and
    the reported E, nu, K are that material's *)
Theorem C17_pair_gives_material : forall m t1 t2 m1 m2 T, admissible m -> t1 <> t2 ->
  modulus m t1 (m1 T) -> modulus m t2 (m2 T) ->
  exists o, make_iso m1 m2 t1 t2 = Some o /\ get_GK o T = Some (mG m, mK m) /\
    iso_E o T = Some (mE m) /\ iso_nu o T = Some (mNu m) /\ iso_K o T = Some (mK m).
Proof.
  intros m t1 t2 m1 m2 T Hm Hne H1 H2.
  exists {| iso_m1 := m1; iso_m2 := m2; iso_t1 := t1; iso_t2 := t2 |}.
  assert (V : forall t v, modulus m t v -> valid_type t = true).
  { intros t v [[-> _] | [[-> _] | [[-> _] | [-> _]]]]; reflexivity. }
  assert (E : get_GK {| iso_m1 := m1; iso_m2 := m2; iso_t1 := t1; iso_t2 := t2 |} T = Some (mG m, mK m)).
  { apply GK_material; assumption. }
  split; [|split; [exact E|]].
  - unfold make_iso. destruct (String.eqb_spec t1 t2) as [Q|_]; [contradiction|]. rewrite (V _ _ H1), (V _ _ H2). reflexivity.
  - unfold iso_E, iso_nu, iso_K. rewrite E. destruct Hm as (HG & HK & A & B).
    set (G := mG m) in *. set (K := mK m) in *. set (nu := mNu m) in *. set (Ey := mE m) in *.
    assert (KG : 3 * K * (1 - 2 * nu) = 2 * G * (1 + nu)) by lra.
    assert (N : nu * (2 * (3 * K + G)) = 3 * K - 2 * G) by lra.
    split; [|split; [|reflexivity]]; f_equal.
    + symmetry. apply to_E; try assumption. replace (Ey * (3 * K + G)) with (3 * K * Ey + G * Ey) by ring. rewrite A at 1. rewrite B. ring.
    + symmetry. apply to_nu; assumption.
Qed.
Print Assumptions C17_pair_gives_material.
(** two accepted pairs describing one material give one stiffness *)
Theorem C17_pairs_agree : forall m t1 t2 u1 u2 m1 m2 n1 n2 o o' T, admissible m ->
  make_iso m1 m2 t1 t2 = Some o -> make_iso n1 n2 u1 u2 = Some o' ->
  modulus m t1 (m1 T) -> modulus m t2 (m2 T) -> modulus m u1 (n1 T) -> modulus m u2 (n2 T) ->
  iso_C o T = Some (C_calc (mG m) (mK m)) /\ iso_C o' T = iso_C o T /\ iso_S o' T = iso_S o T.
Proof.
  assert (P : forall m t1 t2 m1 m2 o T, admissible m -> make_iso m1 m2 t1 t2 = Some o -> modulus m t1 (m1 T) -> modulus m t2 (m2 T) -> get_GK o T = Some (mG m, mK m)).
  { intros m t1 t2 m1 m2 o T Hm Ho H1 H2. unfold make_iso in Ho. destruct (String.eqb_spec t1 t2) as [|Ne]; [discriminate|].
    destruct (valid_type t1); [|discriminate]. destruct (valid_type t2); [|discriminate]. injection Ho as <-. apply GK_material; assumption. }
  intros m t1 t2 u1 u2 m1 m2 n1 n2 o o' T Hm Ho Ho' H1 H2 H3 H4.
  unfold iso_C, iso_S. rewrite (P _ _ _ _ _ _ _ Hm Ho H1 H2), (P _ _ _ _ _ _ _ Hm Ho' H3 H4). split; [|split]; reflexivity.
Qed.
Print Assumptions C17_pairs_agree.
(** conversely the G and K of a pair reproduce the two inputs *)
Theorem C17_inputs_reproduced : forall o T G K, get_GK o T = Some (G, K) -> 0 < G -> 0 < K ->
  exists m, admissible m /\ mG m = G /\ mK m = K /\ iso_E o T = Some (mE m) /\ iso_nu o T = Some (mNu m) /\
    modulus m (iso_t1 o) (iso_m1 o T) /\ modulus m (iso_t2 o) (iso_m2 o T).
Proof.
  intros o T G K E HG HK. exists (mat_of G K). split; [apply mat_of_admissible; assumption|]. unfold iso_E, iso_nu. rewrite E.
  do 4 (split; [reflexivity|]). exact (GK_reproduces _ _ _ _ _ _ E HG HK).
Qed.
Print Assumptions C17_inputs_reproduced.
(** the constructor accepts exactly the pairs of distinct known names, and an accepted
    object never throws later *)
Theorem C17_constructor : forall m1 m2 t1 t2,
  (forall o, make_iso m1 m2 t1 t2 = Some o -> forall T, exists G K, get_GK o T = Some (G, K)) /\
  (make_iso m1 m2 t1 t2 = None <-> t1 = t2 \/ ~ In t1 ["bulk"; "shear"; "youngs"; "poissons"] \/ ~ In t2 ["bulk"; "shear"; "youngs"; "poissons"]).
Proof.
  intros m1 m2 t1 t2.
  assert (V : forall t, valid_type t = true <-> In t ["bulk"; "shear"; "youngs"; "poissons"]).
  { intros t. unfold valid_type. rewrite existsb_exists. split.
    - intros (x & Hx & E). apply String.eqb_eq in E. subst. exact Hx.
    - intros H. exists t. split; [exact H | apply String.eqb_refl]. }
  split.
  - intros o H T. unfold make_iso in H. destruct (String.eqb_spec t1 t2) as [|Ne]; [discriminate|].
    destruct (valid_type t1) eqn:V1; [|discriminate]. destruct (valid_type t2) eqn:V2; [|discriminate]. injection H as <-.
    apply V in V1. apply V in V2. simpl in V1, V2. unfold get_GK, get_GK_vals; cbn [iso_m1 iso_m2 iso_t1 iso_t2].
    destruct V1 as [<- | [<- | [<- | [<- | []]]]]; destruct V2 as [<- | [<- | [<- | [<- | []]]]]; try (exfalso; apply Ne; reflexivity);
      do 2 eexists; reflexivity.
  - unfold make_iso. destruct (String.eqb_spec t1 t2) as [E|Ne].
    { split; [intros _; left; exact E | reflexivity]. }
    destruct (valid_type t1) eqn:V1; simpl.
    2:{ split; [|reflexivity]. intros _. right; left. intros Q. apply V in Q. congruence. }
    destruct (valid_type t2) eqn:V2; simpl.
    2:{ split; [|reflexivity]. intros _. right; right. intros Q. apply V in Q. congruence. }
    split; [discriminate|]. intros [E | [E | E]]; [contradiction | |]; exfalso; apply E; apply V; assumption.
Qed.
Print Assumptions C17_constructor.
Example C17_demo : let m := {| mE := 130; mNu := 3 / 10; mG := 50; mK := 130 / (12 / 10) |} in
  admissible m /\ modulus m "poissons" (3 / 10) /\ modulus m "bulk" (130 / (12 / 10)).
Proof.
  unfold admissible, modulus; simpl. split; [repeat split; lra|]. split; [right; left; split; reflexivity|].
  right; right; right. split; reflexivity.
Qed.

(** ** C18: material symmetry *)
Theorem C18_isotropic : forall o T C Q, iso_C o T = Some C -> orthogonal Q -> invariant Q C.
Proof.
  intros o T C Q H HQ. unfold iso_C in H. destruct (get_GK o T) as [[G K]|]; [|discriminate]. injection H as <-. apply iso_invariant, HQ.
Qed.
Print Assumptions C18_isotropic.
Theorem C18_cubic : forall o T C Q, cubic_C o T = Some C -> signed_permutation Q -> invariant Q C.
Proof.
  intros o T C Q H HQ. unfold cubic_C in H. destruct (cubic_components o T) as [[[C1 C2] C3]|]; [|discriminate]. injection H as <-. apply cubic_invariant, HQ.
Qed.
Print Assumptions C18_cubic.
(** the moduli form with mu = E/(2(1+nu)) is the isotropic stiffness *)
Theorem C18_cubic_moduli_isotropic : forall E nu G K, 0 < G -> 0 < K -> E = 2 * G * (1 + nu) -> E = 3 * K * (1 - 2 * nu) ->
  forall T, exists C, cubic_C {| cub_1 := fun _ => E; cub_2 := fun _ => nu; cub_3 := fun _ => G; cub_method := "moduli" |} T = Some C /\
  veq 36 C (C_calc G K).
Proof.
  intros E nu G K HG HK H1 H2 T. eexists. split; [reflexivity|].
  assert (A : admissible {| mE := E; mNu := nu; mG := G; mK := K |}) by (split; [exact HG | split; [exact HK | split; assumption]]).
  pose proof (GK_material _ "youngs" "poissons" E nu A ltac:(discriminate) ltac:(left; split; reflexivity) ltac:(right; left; split; reflexivity)) as Q.
  unfold get_GK_vals in Q; simpl in Q. injection Q as QG QK.
  assert (D1 : 2 * (1 + nu) <> 0). { intros Z. rewrite Z in QG. unfold Rdiv in QG. rewrite Rinv_0, Rmult_0_r in QG. lra. }
  assert (D2 : 3 * (1 - 2 * nu) <> 0). { intros Z. rewrite Z in QK. unfold Rdiv in QK. rewrite Rinv_0, Rmult_0_r in QK. lra. }
  assert (D1' : 1 + nu <> 0) by lra. assert (D2' : 1 - 2 * nu <> 0) by lra.
  assert (Ea : E / ((1 + nu) * (1 - 2 * nu)) * (1 - nu) = 2 * G + (K - 2 / 3 * G)).
  { rewrite <- QG, <- QK. field. split; assumption. }
  assert (Eb : E / ((1 + nu) * (1 - 2 * nu)) * nu = K - 2 / 3 * G).
  { rewrite <- QG, <- QK. field. split; assumption. }
  rewrite iso_is_cubic. intros p Hp. rewrite <- Ea, <- Eb. reflexivity.
Qed.
Print Assumptions C18_cubic_moduli_isotropic.
(** finding: the transversely isotropic stiffness is not invariant under rotations about its
    axis unless C11 = C12 (a degenerate material with no in-plane shear stiffness): the entry
    for the 12-shear is (C11-C12)/2 where Mandel notation needs C11-C12 *)
Theorem C18_transverse_refuted : forall o T C, trans_C o T = Some C ->
  ((forall c s, c * c + s * s = 1 -> invariant (rotz c s) C) <-> tr_1 o T = tr_3 o T).
Proof.
  intros o T C H. unfold trans_C in H. destruct (String.eqb (tr_method o) "components"); [|discriminate]. injection H as <-. split.
  - intros Hall. destruct (Req_dec (tr_1 o T) (tr_3 o T)) as [E|Ne]; [exact E|]. exfalso.
    apply (trans_not_invariant (tr_1 o T) (tr_2 o T) (tr_3 o T) (tr_4 o T) (tr_5 o T) Ne). apply Hall.
    pose proof r2_sqr. field_simplify. simpl. lra.
  - intros E c s Hcs. rewrite <- E. apply trans_degenerate_invariant, Hcs.
Qed.
Print Assumptions C18_transverse_refuted.
(** quarter turns about the axis do leave it invariant *)
Theorem C18_transverse_partial : forall o T C, trans_C o T = Some C -> invariant (rotz 0 1) C.
Proof.
  intros o T C H. unfold trans_C in H. destruct (String.eqb (tr_method o) "components"); [|discriminate]. injection H as <-. apply quarter_invariant.
Qed.
Print Assumptions C18_transverse_partial.
Example C18_demo : signed_permutation (rotz 0 1) /\ orthogonal (rotz (3 / 5) (4 / 5)).
Proof.
  split.
  - exists (fun i => match i with 0 => 1 | 1 => 0 | _ => 2 end)%nat, (fun i => match i with 1%nat => -1 | _ => 1 end). split; [|split].
    + intros i Hi. cases3 i Hi; (split; [lia | auto]).
    + intros i j Hi Hj. cases3 i Hi; cases3 j Hj; simpl; try reflexivity; discriminate.
    + intros i j Hi Hj. cases3 i Hi; cases3 j Hj; simpl; ring.
  - intros i j Hi Hj. cases3 i Hi; cases3 j Hj; cbv [rotz rsum delta Nat.eqb]; field.
Qed.

(** ** C54: the elastic energy is positive *)
Theorem C54_isotropic_energy : forall o T G K C e, get_GK o T = Some (G, K) -> 0 < G -> 0 < K -> iso_C o T = Some C ->
  (exists i, (i < 6)%nat /\ e i <> 0) -> 0 < dot 6 e (mv 6 (flat 6 C) e).
Proof.
  intros o T G K C e E HG HK H He. unfold iso_C in H. rewrite E in H. injection H as <-. apply iso_posdef; assumption.
Qed.
Print Assumptions C54_isotropic_energy.
Theorem C54_cubic_energy : forall o T C1 C2 C3 C e, cubic_components o T = Some (C1, C2, C3) -> cubic_C o T = Some C ->
  0 < C1 + 2 * C2 -> 0 < C1 - C2 -> 0 < C3 ->
  (exists i, (i < 6)%nat /\ e i <> 0) -> 0 < dot 6 e (mv 6 (flat 6 C) e).
Proof.
  intros o T C1 C2 C3 C e E H. unfold cubic_C in H. rewrite E in H. injection H as <-. apply cubic_posdef.
Qed.
Print Assumptions C54_cubic_energy.
Example C54_demo : cubic_components {| cub_1 := fun _ => 283; cub_2 := fun _ => 121; cub_3 := fun T => 160 - T / 10; cub_method := "components" |} 300
   = Some (283, 121, 160 - 300 / 10) /\ 0 < 283 + 2 * 121 /\ 0 < 283 - 121 /\ 0 < 160 - 300 / 10.
Proof. split; [reflexivity|]. repeat split; lra. Qed.

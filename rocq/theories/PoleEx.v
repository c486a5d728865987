(** Witnesses for the pole figure theorems. *)
From Coq Require Import String ZArith.
From Verif Require Import Base.
From Verif Require Import Diff.
From Verif Require Import NemlMathModel NemlMathSpec RotModel RotSpec RotProofs RotMatrix RotConv RotMore.
From Verif Require Import CrystModel CrystSpec CrystProofs CrystLattice.
From Verif Require Import PoleModel PoleSpec PoleProofs PoleFig PoleIpf.
From Coq Require Import Psatz FunctionalExtensionality.

(** a direction in the plane of the plot is not shown *)
Lemma equator_lost : forall a l, 0 < a -> symmetry_rotations "1" = Some l ->
  project_ipf (miller2cart_direction (cubic_cell a)) l qone (v3 1 0 0) l [1; 0; 0]%Z [0; 1; 0]%Z = Some [].
Proof.
  intros a l Ha Hl. destruct (cubic_axes a Ha) as (tr & ET & UT & Id). unfold project_ipf. rewrite ET. f_equal.
  destruct (above (ipf_sphere tr qone l l (v3 1 0 0))) as [|p t] eqn:E; [reflexivity|exfalso].
  assert (I : In p (above (ipf_sphere tr qone l l (v3 1 0 0)))) by (rewrite E; left; reflexivity). apply above_In in I as [I P].
  apply ipf_sphere_In in I as (S & R & HS & HR & EP).
  assert (IdR : forall R, In R l -> forall v, veq 3 (apply_v R v) v).
  { clear - Hl. assert (L : l = [O4 1 0 0 0]) by (unfold symmetry_rotations in Hl; cbn [String.eqb Ascii.eqb Bool.eqb] in Hl; injection Hl as <-; reflexivity).
    intros R HR v. subst l. destruct HR as [<-|[]].
    assert (EO : O4 1 0 0 0 = qone).
    { unfold O4, mk_orientation. apply normalize_id. unfold unitq; cbn; ring. }
    rewrite EO. apply apply_one. }
  assert (V : veq 3 p (v3 1 0 0)).
  { rewrite EP. eapply veq3_trans; [apply Id|]. eapply veq3_trans; [apply IdR; exact HR|]. eapply veq3_trans; [apply apply_one|]. eapply veq3_trans; [apply IdR; exact HS|]. apply e1_norm. }
  rewrite (V 2%nat) in P by lia. cbn in P. lra.
Qed.
(** the cubic operators contain the orthorhombic ones, and the images of [100] are apart *)
Lemma ortho_contained : contained (slice 0 4 tetragonal) cubic.
Proof.
  intros S HS. rewrite tetragonal_z, slice_map in HS. unfold tetragonalZ, slice in HS. cbn [map firstn skipn Nat.sub In] in HS.
  rewrite cubic_z. unfold cubicZ. cbn [map].
  destruct HS as [<-|[<-|[<-|[<-|[]]]]]; eexists; (split; [|apply same_turn_refl]); cbn [In].
  - left; reflexivity.
  - do 9 right; left; reflexivity.
  - do 11 right; left; reflexivity.
  - do 10 right; left; reflexivity.
Qed.
Lemma e1_apart : images_apart cubic (v3 1 0 0).
Proof.
  intros R S HR HS H. destruct (axis_images R HR) as (s & Hs & k & Hk & MR). destruct (axis_images S HS) as (t & Ht & j & Hj & MS).
  pose proof (H 0%nat ltac:(lia)) as H0. pose proof (H 1%nat ltac:(lia)) as H1. pose proof (H 2%nat ltac:(lia)) as H2. clear H HR HS.
  rewrite (MR 0%nat), (MS 0%nat) in H0 by lia. rewrite (MR 1%nat), (MS 1%nat) in H1 by lia. rewrite (MR 2%nat), (MS 2%nat) in H2 by lia.
  assert (E : s = t /\ k = j).
  { destruct k as [|[|[|k]]]; try lia; destruct j as [|[|[|j]]]; try lia; unfold delta in *; cbn [Nat.eqb] in *;
    destruct Hs as [-> | ->], Ht as [-> | ->]; (split; [try reflexivity|try reflexivity]); exfalso;
    revert H0 H1 H2; unfold Rabs; repeat destruct (Rcase_abs _); lra. }
  destruct E as [-> ->]. intros i Hi. rewrite (MR i Hi), (MS i Hi). reflexivity.
Qed.

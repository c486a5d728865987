(** The planes the damage model reads off a lattice built with the library's calls. *)
From Verif Require Import Base.
From Verif Require Import NemlMathModel.
From Verif Require Import RotModel.
From Verif Require Import RotSpec.
From Verif Require Import RotProofs.
From Verif Require Import TensorModel.
From Verif Require Import Blocks.
From Verif Require Import CrystModel.
From Verif Require Import CrystSpec.
From Verif Require Import CrystLattice.
From Verif Require Import CrystSystems.
From Verif Require Import CrystTwin.
From Verif Require Import SlipModel.
From Verif Require Import SlipFacts.
From Verif Require Import CpModel.
From Verif Require Import CdModel.
From Verif Require Import CdSpec.
From Coq Require Import List ZArith.
Import ListNotations.

Lemma update_normals_unit ps : forall ns acc, Forall unit_vec ns -> Forall unit_vec ps -> Forall unit_vec (fst (update_normals ns ps acc)).
Proof.
  induction ps as [|p ps IH]; intros ns acc Hn Hp; cbn [update_normals]; [exact Hn|]. inversion Hp as [|? ? A B]; subst. destruct (find_plane ns p 0); apply IH; try assumption.
  apply Forall_app. split; [exact Hn|]. constructor; [exact A|constructor].
Qed.
Lemma add_group_unit L G : Forall unit_vec (la_normals L) -> Forall (fun s => unit_vec (s_plane s)) (g_sys G) -> Forall unit_vec (la_normals (add_group L G)).
Proof.
  intros HL HG. unfold add_group. destruct (g_sys G) as [|s0 ss] eqn:E; [exact HL|]. cbn [la_normals]. apply update_normals_unit; [exact HL|]. apply Forall_map. exact HG.
Qed.
Lemma built_unit hash m2d m2p ops L : built hash m2d m2p ops L -> Forall unit_vec (la_normals L).
Proof.
  intros H. induction H as [|L d p L' H IH E|L e1 K1 e2 K2 L' H IH E|L Q H IH].
  - constructor.
  - unfold add_slip_system in E. destruct (m2d d); [|discriminate]. destruct (m2p p); [|discriminate]. injection E as <-. apply add_group_unit; [exact IH|].
    apply Forall_forall. intros s Hs. cbn [g_sys] in Hs. destruct (slip_systems_sound _ _ _ _ Hs) as (_ & _ & X & _). exact X.
  - unfold add_twin_system in E. destruct (m2p K1); [|discriminate]. destruct (m2d e2); [|discriminate]. destruct (m2d e1); [|discriminate]. destruct (m2p K2); [|discriminate].
    injection E as <-. apply add_group_unit; [exact IH|]. apply Forall_forall. intros s Hs. cbn [g_sys] in Hs. destruct (twin_systems_sound _ _ _ _ _ _ Hs) as (_ & X & _). exact X.
  - destruct (cache_rot_same hash L Q) as (_ & _ & C & _). rewrite C. exact IH.
Qed.
Lemma unit_vec_unit3 n : unit_vec n -> unit3 n.
Proof. unfold unit_vec, unit3, ndot. auto. Qed.
Lemma planes_unit hash m2d m2p ops L Q j : built hash m2d m2p ops L -> unitq Q -> (j < p_n (planes_of L Q))%nat -> unit3 (p_normal (planes_of L Q) j).
Proof.
  intros HB HQ Hj. cbn [planes_of p_n p_normal] in *. apply unit_vec_unit3. unfold unit_vec. rewrite apply_v_dot by exact HQ.
  pose proof (built_unit _ _ _ _ _ HB) as F. rewrite Forall_forall in F. apply F. apply nth_In. exact Hj.
Qed.
Lemma planes_systems hash m2d m2p ops L Q j : built hash m2d m2p ops L -> Forall (fun p => (p < l_n (view L Q))%nat) (p_sys (planes_of L Q) j).
Proof.
  intros HB. cbn [planes_of p_sys]. apply Forall_map. apply Forall_forall. intros [g i] Hgi. cbn [fst snd].
  pose proof (built_ok _ _ _ _ _ HB) as HK. apply (plane_systems_iff L j g i HK) in Hgi. destruct HK as (_ & _ & _ & _ & _ & HN & _). destruct (HN g i j Hgi) as (_ & s & Hs).
  unfold get_sys in Hs. destruct (nth_error (la_groups L) g) as [G|] eqn:EG; [|discriminate].
  assert (Hg : (g < ngroup L)%nat) by (unfold ngroup; apply nth_error_Some; congruence).
  assert (Hi : (i < grp_size L g)%nat) by (rewrite (grp_size_at L g G EG); apply nth_error_Some; congruence).
  cbn [view l_n]. assert (M : forall m, (g < m)%nat -> (boff (grp_size L) g + i < boff (grp_size L) m)%nat).
  { intros m Hm. induction Hm as [|m Hm IH]; cbn [boff]; [lia|]. lia. }
  apply M. exact Hg.
Qed.
(** every system is in the list of its own plane *)
Lemma planes_cover hash m2d m2p ops L Q g i s : built hash m2d m2p ops L -> get_sys L g i = Some s ->
  exists j, (j < p_n (planes_of L Q))%nat /\ In (boff (grp_size L) g + i)%nat (p_sys (planes_of L Q) j).
Proof.
  intros HB Hs. pose proof (built_ok _ _ _ _ _ HB) as HK. assert (HK' := HK). destruct HK as (_ & _ & _ & _ & HP & HN & _). destruct (HP g i s Hs) as (k & n & Hk & _). exists k. split.
  - destruct (HN g i k Hk) as (Lt & _). exact Lt.
  - cbn [planes_of p_sys]. apply in_map_iff. exists (g, i). split; [reflexivity|]. apply (plane_systems_iff L k g i HK'). exact Hk.
Qed.

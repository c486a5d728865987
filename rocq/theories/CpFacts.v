(** Kinematics of a crystal, and facts of the inelastic models. *)
From Verif Require Import Base.
From Verif Require Import Diff.
From Verif Require Import NemlMathModel.
From Verif Require Import NemlMathSpec.
From Verif Require Import NemlMathProofs.
From Verif Require Import RotModel.
From Verif Require Import TensorModel.
From Verif Require Import TensorProofs.
From Verif Require Import Blocks.
From Verif Require Import SlipModel.
From Verif Require Import SlipSpec.
From Verif Require Import SlipProofs.
From Verif Require Import SlipWhole.
From Verif Require Import SlipFacts.
From Verif Require Import CpModel.
From Verif Require Import CpSpec.
From Verif Require Import CpProofs.
From Verif Require Import CpComb.
From Coq Require Import Lia Lra List Bool.
Import ListNotations.

(** *** Linear algebra of the bracket *)
Lemma net_ext e e' w w' k : (forall i, (i < 6)%nat -> e i = e' i) -> (forall i, (i < 3)%nat -> w i = w' i) -> (k < 6)%nat -> net e w k = net e' w' k.
Proof. intros He Hw Hk. rewrite !net_table by exact Hk. rewrite !He, !Hw by lia. reflexivity. Qed.
Lemma net_lin_l x y c w k : (k < 6)%nat -> net (fun a => x a + y a * c) w k = net x w k + net y w k * c.
Proof. intros Hk. rewrite !net_table by exact Hk. cases6 k Hk; ring. Qed.
Lemma net_lin_r e x y c k : (k < 6)%nat -> net e (fun a => x a + y a * c) k = net e x k + net e y k * c.
Proof. intros Hk. rewrite !net_table by exact Hk. cases6 k Hk; ring. Qed.
Lemma net_0_l w k : (k < 6)%nat -> net (fun _ => 0) w k = 0.
Proof. intros Hk. rewrite !net_table by exact Hk. cases6 k Hk; ring. Qed.
Lemma net_0_r e k : (k < 6)%nat -> net e (fun _ => 0) k = 0.
Proof. intros Hk. rewrite !net_table by exact Hk. cases6 k Hk; ring. Qed.
Lemma net_sum_l n (A : nat -> vec) (c : vec) w k : (k < 6)%nat ->
  net (fun a => rsum n (fun j => A j a * c j)) w k = rsum n (fun j => net (A j) w k * c j).
Proof. intros Hk. induction n as [|n IH]; cbn [rsum]; [apply net_0_l; exact Hk|]. rewrite net_lin_l by exact Hk. rewrite IH. reflexivity. Qed.
Lemma net_sum_r n (A : nat -> vec) (c : vec) e k : (k < 6)%nat ->
  net e (fun a => rsum n (fun j => A j a * c j)) k = rsum n (fun j => net e (A j) k * c j).
Proof. intros Hk. induction n as [|n IH]; cbn [rsum]; [apply net_0_r; exact Hk|]. rewrite net_lin_r by exact Hk. rewrite IH. reflexivity. Qed.

(** *** The stress rate *)
Lemma path_mv n k (A : mat) (x : R -> vec) t v : path n x t v -> path k (fun u => mv n A (x u)) t (mv n A v).
Proof.
  intros H i Hi. unfold mv. apply (D_rsum n (fun u j => A i j * x u j) t (fun j => A i j * v j)). intros j Hj.
  eapply D_eq; [apply D_mult; [apply D_const|apply (H j Hj)]|cbv beta; ring].
Qed.
Lemma path_sk_e f (s : R -> vec) t v : path 6 s t v -> path 6 (fun u => sk_e f (s u)) t (sk_e f v).
Proof. apply path_mv. Qed.

(** The bracket along paths of stress and variables. *)
Lemma path_net f m P (s h : R -> vec) t vs vh : inelastic_exact m P -> path 6 s t vs -> path (i_n m) h t vh -> P (s t) (h t) ->
  path 6 (fun u => net (sk_e f (s u)) (sk_O f m (s u) (h u))) t
    (vadd (net (sk_e f vs) (sk_O f m (s t) (h t)))
          (net (sk_e f (s t)) (vadd (mv 6 (i_wp_s m (s t) (h t)) vs) (mv (i_n m) (i_wp_h m (s t) (h t)) vh)))).
Proof.
  intros (_ & HW & _) Hs Hh HP. apply D_net; [apply path_sk_e; exact Hs|]. intros k Hk. unfold sk_O, vadd at 1.
  eapply D_eq; [apply D_plus; [apply D_const|exact (HW s h t vs vh Hs Hh HP k Hk)]|cbv beta; ring].
Qed.

Lemma stress_rate_exact f m P d : inelastic_exact m P ->
  is_jac2 6 6 (i_n m) P (fun s h => sk_rate f m s d h) (sk_ds f m) (sk_dh f m).
Proof.
  intros HE s h t vs vh Hs Hh HP i Hi. unfold sk_rate.
  pose proof (path_net f m P s h t vs vh HE Hs Hh HP) as HN. destruct HE as (HD & _ & _).
  assert (HX : path 6 (fun u => vsub (vsub d (i_dp m (s u) (h u))) (net (sk_e f (s u)) (sk_O f m (s u) (h u)))) t
     (fun k => - (mv 6 (i_dp_s m (s t) (h t)) vs k + mv (i_n m) (i_dp_h m (s t) (h t)) vh k)
               - (net (sk_e f vs) (sk_O f m (s t) (h t)) k
                  + net (sk_e f (s t)) (vadd (mv 6 (i_wp_s m (s t) (h t)) vs) (mv (i_n m) (i_wp_h m (s t) (h t)) vh)) k))).
  { intros k Hk. unfold vsub. eapply D_eq; [apply D_minus; [apply D_minus; [apply D_const|exact (HD s h t vs vh Hs Hh HP k Hk)]|exact (HN k Hk)]|unfold vadd; cbv beta; ring]. }
  eapply D_eq; [exact (path_mv 6 6 (flat 6 (f_C f)) _ t _ HX i Hi)|].
  unfold vadd at 2. cbv beta.
  set (C := flat 6 (f_C f)). 
  assert (E1 : mv 6 (sk_ds f m (s t) (h t)) vs i = rsum 6 (fun k => - C i k * (mv 6 (i_dp_s m (s t) (h t)) vs k + net (sk_e f vs) (sk_O f m (s t) (h t)) k
       + net (sk_e f (s t)) (mv 6 (i_wp_s m (s t) (h t)) vs) k))).
  { unfold sk_ds. unfold mv at 1. unfold mm. 
    rewrite (rsum_ext 6 _ (fun j => rsum 6 (fun k => - C i k * ((i_dp_s m (s t) (h t) k j + net (fun a => flat 6 (f_S f) a j) (sk_O f m (s t) (h t)) k
        + net (sk_e f (s t)) (fun a => i_wp_s m (s t) (h t) a j) k) * vs j)))).
    - rewrite rsum_swap. apply rsum_ext. intros k Hk. rewrite rsum_scal. f_equal. unfold mv at 1.
      assert (A1 : net (sk_e f vs) (sk_O f m (s t) (h t)) k = rsum 6 (fun j => net (fun a => flat 6 (f_S f) a j) (sk_O f m (s t) (h t)) k * vs j))
        by (apply (net_sum_l 6 (fun j a => flat 6 (f_S f) a j) vs); exact Hk).
      assert (A2 : net (sk_e f (s t)) (mv 6 (i_wp_s m (s t) (h t)) vs) k = rsum 6 (fun j => net (sk_e f (s t)) (fun a => i_wp_s m (s t) (h t) a j) k * vs j))
        by (apply (net_sum_r 6 (fun j a => i_wp_s m (s t) (h t) a j) vs); exact Hk).
      rewrite A1, A2, <- !rsum_plus. apply rsum_ext. intros; ring.
    - intros j Hj. rewrite <- rsum_scal_r. apply rsum_ext. intros k Hk. rewrite D2_net, D3_net by assumption. fold C. ring. }
  assert (E2 : mv (i_n m) (sk_dh f m (s t) (h t)) vh i = rsum 6 (fun k => - C i k * (mv (i_n m) (i_dp_h m (s t) (h t)) vh k
       + net (sk_e f (s t)) (mv (i_n m) (i_wp_h m (s t) (h t)) vh) k))).
  { unfold sk_dh. unfold mv at 1. 
    rewrite (rsum_ext (i_n m) _ (fun x => rsum 6 (fun k => - C i k * ((i_dp_h m (s t) (h t) k x + net (sk_e f (s t)) (fun l => i_wp_h m (s t) (h t) l x) k) * vh x)))).
    - rewrite rsum_swap. apply rsum_ext. intros k Hk. rewrite rsum_scal. f_equal. unfold mv at 1.
      assert (A2 : net (sk_e f (s t)) (mv (i_n m) (i_wp_h m (s t) (h t)) vh) k = rsum (i_n m) (fun j => net (sk_e f (s t)) (fun a => i_wp_h m (s t) (h t) a j) k * vh j))
        by (apply (net_sum_r (i_n m) (fun j a => i_wp_h m (s t) (h t) a j) vh); exact Hk).
      rewrite A2, <- !rsum_plus. apply rsum_ext. intros; ring.
    - intros x Hx. unfold mv. rewrite <- rsum_scal_r. apply rsum_ext. intros k Hk. fold C. ring. }
  rewrite E1, E2, <- rsum_plus. unfold mv at 1. apply rsum_ext. intros k Hk.
  assert (E3 : net (sk_e f (s t)) (vadd (mv 6 (i_wp_s m (s t) (h t)) vs) (mv (i_n m) (i_wp_h m (s t) (h t)) vh)) k
     = net (sk_e f (s t)) (mv 6 (i_wp_s m (s t) (h t)) vs) k + net (sk_e f (s t)) (mv (i_n m) (i_wp_h m (s t) (h t)) vh) k * 1).
  { rewrite <- net_lin_r by exact Hk. apply net_ext; [reflexivity| |exact Hk]. intros a Ha. unfold vadd. ring. }
  rewrite E3. fold C. ring.
Qed.

Lemma rate_by_d f m (s h : vec) (d : R -> vec) t vd : path 6 d t vd -> path 6 (fun u => sk_rate f m s (d u) h) t (mv 6 (sk_dd f) vd).
Proof.
  intros Hd. unfold sk_rate, sk_dd. apply path_mv. intros k Hk. unfold vsub.
  eapply D_eq; [apply D_minus; [apply D_minus; [apply (Hd k Hk)|apply D_const]|apply D_const]|cbv beta; ring].
Qed.

(** The stress rate as the spin changes with the vorticity it was computed from. *)
Lemma rate_by_w C S m (s0 h0 s d h : vec) (w : R -> vec) t vw : path 3 w t vw ->
  path 6 (fun u => sk_rate (sk_decouple C S m s0 (w u) h0) m s d h) t (mv 3 (sk_dw_decouple (sk_decouple C S m s0 (w t) h0) s) vw).
Proof.
  intros Hw i Hi. unfold sk_dw_decouple. cbn [sk_decouple f_C]. rewrite (special_net C _ vw i Hi).
  assert (HX : path 6 (fun u => vsub (vsub d (i_dp m s h)) (net (sk_e (sk_decouple C S m s0 (w u) h0) s) (sk_O (sk_decouple C S m s0 (w u) h0) m s h))) t
     (fun k => - net (sk_e (sk_decouple C S m s0 (w t) h0) s) vw k)).
  { intros k Hk. unfold vsub. 
    assert (HN : path 6 (fun u => net (mv 6 (flat 6 S) s) (sk_O (sk_decouple C S m s0 (w u) h0) m s h)) t (vadd (net (fun _ => 0) (sk_O (sk_decouple C S m s0 (w t) h0) m s h)) (net (mv 6 (flat 6 S) s) vw))).
    { apply (D_net (fun _ => mv 6 (flat 6 S) s)); [intros a Ha; apply D_const|]. intros a Ha. unfold sk_O, vadd, sk_decouple, f_spin, sk_spin, vsub.
      eapply D_eq; [apply D_plus; [apply D_minus; [apply D_minus; [apply (Hw a Ha)|apply D_const]|apply D_const]|apply D_const]|cbv beta; ring]. }
    eapply D_eq; [apply D_minus; [apply D_const|exact (HN k Hk)]|]. unfold vadd. rewrite net_0_l by exact Hk. cbv beta. unfold sk_e. cbn [sk_decouple f_S]. ring. }
  eapply D_eq; [exact (path_mv 6 6 (flat 6 C) _ t _ HX i Hi)|]. unfold mv at 1 2. rewrite <- rsum_opp. apply rsum_ext. intros; ring.
Qed.

(** *** The spin *)
Lemma sk_comm_zero e d k : (k < 3)%nat -> sk_comm e d k = 0.
Proof. intros Hk. unfold sk_comm. set (X := vsub (sym_dot e d) (sym_dot d e)). clearbody X. cases3 k Hk; cbv [mk_skew usym tr_2 Nat.mul Nat.add]; ring. Qed.
Lemma spin_value S m s w h k : (k < 3)%nat -> sk_spin S m s w h k = w k - i_wp m s h k.
Proof. intros Hk. unfold sk_spin, vsub. rewrite sk_comm_zero by exact Hk. ring. Qed.

(** *** The bracket is the commutator *)
Lemma net_full e w i j : (i < 3)%nat -> (j < 3)%nat -> t2 (usym (net e w)) i j = commutator (t2 (usym e)) (t2 (uskew w)) i j.
Proof.
  intros Hi Hj. unfold commutator, mm, t2. cbn [rsum]. 
  assert (N0 := net_table e w 0 ltac:(lia)). assert (N1 := net_table e w 1 ltac:(lia)). assert (N2 := net_table e w 2 ltac:(lia)).
  assert (N3 := net_table e w 3 ltac:(lia)). assert (N4 := net_table e w 4 ltac:(lia)). assert (N5 := net_table e w 5 ltac:(lia)).
  unfold usym, uskew. cases3 i Hi; cases3 j Hj; cbn [Nat.mul Nat.add]; rewrite ?N0, ?N1, ?N2, ?N3, ?N4, ?N5; r2ring.
Qed.

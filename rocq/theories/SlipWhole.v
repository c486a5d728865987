(** The whole slip rule: slip rates of all systems and history rates, with the
    reported derivatives. *)
From Verif Require Import Base.
From Verif Require Import Diff.
From Verif Require Import NemlMathModel.
From Verif Require Import TensorModel.
From Verif Require Import Blocks.
From Verif Require Import SlipModel.
From Verif Require Import SlipSpec.
From Verif Require Import SlipProofs.
From Coq Require Import Lia Lra.


Lemma rs_tau_D L (s : R -> vec) t vs p : path 6 s t vs -> is_derive (fun u => rs_tau L (s u) p) t (dot 6 (l_M L p) vs).
Proof.
  intros Hs. unfold rs_tau, sym_contract, dot. apply (D_rsum 6 (fun u k => l_M L p k * s u k)).
  intros k Hk. eapply D_eq; [apply D_mult; [apply D_const|apply (Hs k Hk)]|cbv beta; ring].
Qed.

Lemma path_sub ns m (h : R -> vec) t v k : (k < m)%nat -> path (boff ns m) h t v ->
  path (ns k) (fun u => bsub ns (h u) k) t (bsub ns v k).
Proof. intros Hk H q Hq. unfold bsub. apply (H (boff ns k + q)%nat). apply boff_lt; assumption. Qed.

Lemma slip_whole L r Ps Ph : scalar_exact r Ps ->
  (forall k, (k < r_n r)%nat -> strength_exact L (r_str r k) (Ph k)) ->
  is_jac2 (l_n L) 6 (r_nh r) (slip_in L r Ps Ph) (rs_slip L r) (rs_dslip_s L r) (rs_dslip_h L r).
Proof.
  intros HP HS s h t vs vh Hs Hh [HPh Hin] p Hp. destruct (Hin p Hp) as (Hps & Hrange & Htw). clear Hin.
  unfold vadd, mv.
  pose proof (rs_tau_D L s t vs p Hs) as Htau.
  set (vst := fun k => dot (r_sizes r k) (h_dtau (r_str r k) L (l_off L p + k)%nat (bsub (r_sizes r) (h t) k)) (bsub (r_sizes r) vh k)).
  assert (Hst : path (r_n r) (fun u => rs_str L r (h u) p) t vst).
  { intros k Hk. unfold rs_str, vst.
    apply (HS k Hk (l_off L p + k)%nat (Hrange k Hk) (fun u => bsub (r_sizes r) (h u) k) t (bsub (r_sizes r) vh k)).
    - apply (path_sub (r_sizes r) (r_n r)); assumption.
    - apply HPh; exact Hk. }
  pose proof (HP (fun u => rs_tau L (s u) p) (fun u => rs_str L r (h u) p) t _ vst Htau Hst Hps) as HD.
  assert (Hsum : rsum (r_nh r) (fun j => rs_dslip_h L r (s t) (h t) p j * vh j)
    = if rs_gate L (s t) p then 0 else dot (r_n r) (r_dstr r (rs_tau L (s t) p) (rs_str L r (h t) p)) vst).
  { unfold r_nh. rewrite rsum_blocks. unfold rs_dslip_h, rs_dslip_hb. destruct (rs_gate L (s t) p).
    - rewrite (rsum_ext (r_n r) _ (fun _ => 0)); [apply rsum_0|]. intros k Hk.
      rewrite (rsum_ext (r_sizes r k) _ (fun _ => 0)); [apply rsum_0|]. intros. ring.
    - unfold dot at 1. apply rsum_ext. intros k Hk. unfold vst, dot. rewrite <- rsum_scal. apply rsum_ext. intros q Hq.
      rewrite (bblk_at (r_sizes r) (r_n r) k q Hk Hq), (bpos_at (r_sizes r) (r_n r) k q Hk Hq). unfold bsub. ring. }
  rewrite Hsum.
  assert (Hsum2 : rsum 6 (fun j => rs_dslip_s L r (s t) (h t) p j * vs j)
    = if rs_gate L (s t) p then 0 else r_dtau r (rs_tau L (s t) p) (rs_str L r (h t) p) * dot 6 (l_M L p) vs).
  { unfold rs_dslip_s. destruct (rs_gate L (s t) p).
    - rewrite (rsum_ext 6 _ (fun _ => 0)); [apply rsum_0|]. intros. ring.
    - unfold dot. rewrite <- rsum_scal. apply rsum_ext. intros. ring. }
  rewrite Hsum2. clear Hsum Hsum2.
  unfold rs_slip, rs_gate in *. destruct (l_twin L p) eqn:E; cbn [andb] in *.
  2:{ exact HD. }
  destruct (Req_dec (rs_tau L (s t) p) 0) as [H0|H0].
  - destruct (Htw eq_refl) as [Hc|(Z1 & Z2 & Z3)]; [contradiction|].
    destruct (Rlt_dec (rs_tau L (s t) p) 0) as [Hl|_]; [lra|].
    assert (Zd : dot (r_n r) (r_dstr r (rs_tau L (s t) p) (rs_str L r (h t) p)) vst = 0).
    { unfold dot. rewrite (rsum_ext (r_n r) _ (fun _ => 0)); [apply rsum_0|]. intros k Hk. rewrite Z3 by assumption. ring. }
    rewrite Z2, Zd in HD |- *. rewrite Rmult_0_l, Rplus_0_l in *.
    apply (D_squeeze _ (fun u => r_slip r (rs_tau L (s u) p) (rs_str L r (h u) p))); [|exact Z1|exact HD].
    intros u. destruct (Rlt_dec (rs_tau L (s u) p) 0); [rewrite Rabs_R0; apply Rabs_pos|apply Rle_refl].
  - destruct (Rlt_dec (rs_tau L (s t) p) 0) as [Hl|Hl].
    + rewrite Rplus_0_l. eapply (D_loc (fun _ => 0)); [|apply D_const].
      eapply filter_imp; [|apply (loc_lt _ t _ 0 Htau Hl)]. intros u Hu. cbn beta in Hu.
      destruct (Rlt_dec (rs_tau L (s u) p) 0); [reflexivity|lra].
    + assert (Hg : 0 < rs_tau L (s t) p) by lra.
      eapply D_loc; [|exact HD].
      eapply filter_imp; [|apply (loc_gt _ t _ 0 Htau Hg)]. intros u Hu. cbn beta in Hu.
      destruct (Rlt_dec (rs_tau L (s u) p) 0); [lra|reflexivity].
Qed.

Definition skip (k j : nat) : nat := if Nat.ltb j k then j else S j.
Lemma rsum_skip n k f : (k < S n)%nat -> rsum (S n) f = f k + rsum n (fun j => f (skip k j)).
Proof.
  revert k. induction n as [|n IH]; intros k Hk.
  - replace k with 0%nat by lia. cbn. ring.
  - destruct (Nat.eq_dec k (S n)) as [->|Hne].
    + change (rsum (S (S n)) f) with (rsum (S n) f + f (S n)). rewrite Rplus_comm. f_equal.
      apply rsum_ext. intros j Hj. unfold skip. destruct (Nat.ltb_spec j (S n)); [reflexivity|lia].
    + change (rsum (S (S n)) f) with (rsum (S n) f + f (S n)). rewrite (IH k) by lia.
      change (rsum (S n) (fun j => f (skip k j))) with (rsum n (fun j => f (skip k j)) + f (skip k n)).
      unfold skip at 3. destruct (Nat.ltb_spec n k); [lia|]. ring.
Qed.
Lemma skip_ne k j : skip k j <> k.
Proof. unfold skip. destruct (Nat.ltb_spec j k); lia. Qed.
Lemma skip_lt n k j : (k < n)%nat -> (j < n - 1)%nat -> (skip k j < n)%nat.
Proof. unfold skip. destruct (Nat.ltb_spec j k); lia. Qed.


Lemma rate_whole L r Ps Ph Pr : scalar_exact r Ps ->
  (forall k, (k < r_n r)%nat -> strength_exact L (r_str r k) (Ph k)) ->
  (forall k, (k < r_n r)%nat -> rates_exact L (r_str r k) (r_n r - 1) (Pr k)) ->
  is_jac2 (r_nh r) 6 (r_nh r)
    (fun s h => slip_in L r Ps Ph s h /\ abs_safe L r s h /\
       forall k, (k < r_n r)%nat -> Pr k (rs_slip L r s h) (bsub (r_sizes r) h k))
    (rs_rate L r) (rs_rate_s L r) (rs_rate_h L r).
Proof.
  intros HP HS HR s h t vs vh Hs Hh (Hin & Hsafe & HPr) x Hx.
  pose proof (slip_whole L r Ps Ph HP HS s h t vs vh Hs Hh Hin) as Hsl.
  destruct (locate_total (r_sizes r) (r_n r) x Hx) as (k & q & Hk & Hq & ->).
  unfold rs_rate, vadd, mv, rs_rate_s.
  assert (Eb : bblk (r_sizes r) (r_n r) (boff (r_sizes r) k + q) = k) by (apply bblk_at; assumption).
  assert (Ep : bpos (r_sizes r) (r_n r) (boff (r_sizes r) k + q) = q) by (apply bpos_at; assumption).
  rewrite Eb, Ep.
  destruct (r_n r) as [|m] eqn:En; [lia|]. replace (S m - 1)%nat with m in HR by lia.
  set (ns := fun j => r_sizes r (skip k j)).
  set (de := fun j => rs_dslip_hb L r (s t) (h t) (skip k j)).
  set (ve := fun j => bsub (r_sizes r) vh (skip k j)).
  pose (v := fun p => dot 6 (rs_dslip_s L r (s t) (h t) p) vs
       + dot (h_n (r_str r k)) (rs_dslip_hb L r (s t) (h t) k p) (bsub (r_sizes r) vh k)
       + rsum m (fun j => dot (ns j) (de j p) (ve j))).
  assert (Hhb : forall p, rsum (boff (r_sizes r) (S m)) (fun y => rs_dslip_h L r (s t) (h t) p y * vh y)
     = dot (h_n (r_str r k)) (rs_dslip_hb L r (s t) (h t) k p) (bsub (r_sizes r) vh k) + rsum m (fun j => dot (ns j) (de j p) (ve j))).
  { intros p. rewrite rsum_blocks.
    transitivity (rsum (S m) (fun k0 => dot (r_sizes r k0) (rs_dslip_hb L r (s t) (h t) k0 p) (bsub (r_sizes r) vh k0))).
    - apply rsum_ext. intros k0 Hk0. unfold dot. apply rsum_ext. intros q0 Hq0. unfold rs_dslip_h. rewrite En.
      rewrite (bblk_at (r_sizes r) (S m) k0 q0 Hk0 Hq0), (bpos_at (r_sizes r) (S m) k0 q0 Hk0 Hq0). reflexivity.
    - rewrite (rsum_skip m k _ Hk). reflexivity. }
  assert (Hv : forall p, (p < l_n L)%nat -> is_derive (fun u => rs_slip L r (s u) (h u) p) t (v p)).
  { intros p Hp. eapply D_eq; [apply (Hsl p Hp)|]. unfold vadd, mv, v. unfold r_nh. rewrite En, Hhb. rewrite Rplus_assoc. reflexivity. }
  assert (Hsv : forall p, (p < l_n L)%nat -> rs_slip L r (s t) (h t) p <> 0 \/ v p = 0).
  { intros p Hp. destruct (Hsafe p Hp) as [Hn|[Z1 Z2]]; [left; exact Hn|right].
    unfold v. rewrite Rplus_assoc, <- Hhb. unfold dot.
    rewrite (rsum_ext 6 _ (fun _ => 0)) by (intros c Hc; rewrite Z1 by exact Hc; ring).
    rewrite (rsum_ext (boff (r_sizes r) (S m)) _ (fun _ => 0)) by (intros c Hc; rewrite Z2 by (unfold r_nh; rewrite En; exact Hc); ring).
    rewrite !rsum_0. ring. }
  assert (Hpath : path (h_n (r_str r k)) (fun u => bsub (r_sizes r) (h u) k) t (bsub (r_sizes r) vh k)).
  { apply (path_sub (r_sizes r) (S m)); [exact Hk|]. unfold r_nh in Hh. rewrite En in Hh. exact Hh. }
  pose proof (HR k Hk (fun u => rs_slip L r (s u) (h u)) (fun u => bsub (r_sizes r) (h u) k) t vs (bsub (r_sizes r) vh k)
     (rs_dslip_s L r (s t) (h t)) (rs_dslip_hb L r (s t) (h t) k) ns de ve Hv Hpath Hsv (HPr k Hk) q Hq) as HD.
  eapply D_eq; [exact HD|].
  unfold dot at 1. rewrite Rplus_assoc. f_equal.
  unfold r_nh. rewrite En, rsum_blocks.
  transitivity (rsum (S m) (fun k0 => dot (r_sizes r k0) (if Nat.eqb k0 k then
      h_rate_h (r_str r k) L (rs_slip L r (s t) (h t)) (rs_dslip_hb L r (s t) (h t) k) (bsub (r_sizes r) (h t) k) q
      else h_rate_e (r_str r k) L (rs_slip L r (s t) (h t)) (rs_dslip_hb L r (s t) (h t) k0) (bsub (r_sizes r) (h t) k) q) (bsub (r_sizes r) vh k0))).
  - rewrite (rsum_skip m k _ Hk). rewrite Nat.eqb_refl. f_equal. apply rsum_ext. intros j Hj.
    destruct (Nat.eqb_spec (skip k j) k) as [E|E]; [exfalso; exact (skip_ne k j E)|]. reflexivity.
  - apply rsum_ext. intros k0 Hk0. unfold dot. apply rsum_ext. intros q0 Hq0. unfold rs_rate_h. rewrite En.
    rewrite (bblk_at (r_sizes r) (S m) k0 q0 Hk0 Hq0), (bpos_at (r_sizes r) (S m) k0 q0 Hk0 Hq0), Eb, Ep.
    destruct (Nat.eqb k0 k); reflexivity.
Qed.

(** Total slip. *)
Lemma sum_slip_whole L r Ps Ph : scalar_exact r Ps ->
  (forall k, (k < r_n r)%nat -> strength_exact L (r_str r k) (Ph k)) ->
  is_grad2 6 (r_nh r) (fun s h => slip_in L r Ps Ph s h /\ abs_safe L r s h)
    (fun s h => sum_slip L (rs_slip L r s h))
    (fun s h => d_sum_slip L (rs_slip L r s h) (rs_dslip_s L r s h))
    (fun s h => d_sum_slip L (rs_slip L r s h) (rs_dslip_h L r s h)).
Proof.
  intros HP HS s h t vs vh Hs Hh (Hin & Hsafe).
  pose proof (slip_whole L r Ps Ph HP HS s h t vs vh Hs Hh Hin) as Hsl.
  eapply D_eq; [apply (D_sum_slip L (fun u => rs_slip L r (s u) (h u)) t _ Hsl)|].
  - intros p Hp. destruct (Hsafe p Hp) as [Hn|[Z1 Z2]]; [left; exact Hn|right]. unfold vadd, mv.
    rewrite (rsum_ext 6 _ (fun _ => 0)) by (intros c Hc; rewrite Z1 by exact Hc; ring).
    rewrite (rsum_ext (r_nh r) _ (fun _ => 0)) by (intros c Hc; rewrite Z2 by exact Hc; ring).
    rewrite !rsum_0. apply Rplus_0_r.
  - assert (K : forall n (d : drates) w, rsum (l_n L) (fun p => copysign 1 (rs_slip L r (s t) (h t) p) * rsum n (fun c => d p c * w c))
        = dot n (d_sum_slip L (rs_slip L r (s t) (h t)) d) w).
    { intros n d w. unfold dot, d_sum_slip.
      rewrite (rsum_ext _ _ (fun p => rsum n (fun c => copysign 1 (rs_slip L r (s t) (h t) p) * d p c * w c))).
      - rewrite rsum_swap. apply rsum_ext. intros c _. now rewrite rsum_scal_r.
      - intros p _. rewrite <- rsum_scal. apply rsum_ext. intros. ring. }
    rewrite <- !K, <- rsum_plus. apply rsum_ext. intros p _. unfold vadd, mv. ring.
Qed.

(** Proofs about crystal damage: projections, the planar model. *)
From Verif Require Import Base.
From Verif Require Import Diff.
From Verif Require Import NemlMathModel.
From Verif Require Import NemlMathSpec.
From Verif Require Import NemlMathProofs.
From Verif Require Import RotModel.
From Verif Require Import TensorModel.
From Verif Require Import TensorSpec.
From Verif Require Import TensorProofs.
From Verif Require Import CpModel.
From Verif Require Import MatInv.
From Verif Require Import CdModel.
From Verif Require Import CdSpec.
From Coq Require Import List.

(** *** Projections *)
Definition dy (a b : vec) : vec := mk_symmetric (outer3 a b).
Lemma usym_dy a b i j : (i < 3)%nat -> (j < 3)%nat -> usym (dy a b) (3 * i + j)%nat = (a i * b j + a j * b i) / 2.
Proof.
  intros Hi Hj. change (usym (dy a b) (3 * i + j)%nat) with (t2 (usym (mk_symmetric (outer3 a b))) i j). rewrite usym_mk_symmetric by assumption. unfold symm2, t2, outer3.
  replace ((3 * i + j) / 3)%nat with i by (symmetry; rewrite Nat.mul_comm, Nat.div_add_l by lia; rewrite (Nat.div_small j) by lia; lia).
  replace ((3 * j + i) / 3)%nat with j by (symmetry; rewrite Nat.mul_comm, Nat.div_add_l by lia; rewrite (Nat.div_small i) by lia; lia).
  replace ((3 * i + j) mod 3)%nat with j by (symmetry; rewrite Nat.add_comm, Nat.mul_comm, Nat.mod_add by lia; apply Nat.mod_small; lia).
  replace ((3 * j + i) mod 3)%nat with i by (symmetry; rewrite Nat.add_comm, Nat.mul_comm, Nat.mod_add by lia; apply Nat.mod_small; lia).
  reflexivity.
Qed.
Lemma dy_table a b k : (k < 6)%nat -> dy a b k = match k with
  | 0 => a 0%nat * b 0%nat | 1 => a 1%nat * b 1%nat | 2 => a 2%nat * b 2%nat
  | 3 => (a 1%nat * b 2%nat + a 2%nat * b 1%nat) * r2 / 2 | 4 => (a 0%nat * b 2%nat + a 2%nat * b 0%nat) * r2 / 2
  | 5 => (a 0%nat * b 1%nat + a 1%nat * b 0%nat) * r2 / 2 | _ => 0 end.
Proof. intros Hk. unfold dy, mk_symmetric, outer3, sym, tr_2. fold r2. cases6 k Hk; cbn -[r2]; r2ring. Qed.
Lemma traction_table s n i : (i < 3)%nat -> traction s n i = match i with
  | 0 => s 0%nat * n 0%nat + s 5%nat * r2 / 2 * n 1%nat + s 4%nat * r2 / 2 * n 2%nat
  | 1 => s 5%nat * r2 / 2 * n 0%nat + s 1%nat * n 1%nat + s 3%nat * r2 / 2 * n 2%nat
  | _ => s 4%nat * r2 / 2 * n 0%nat + s 3%nat * r2 / 2 * n 1%nat + s 2%nat * n 2%nat end.
Proof. intros Hi. unfold traction. cases3 i Hi; cbn -[r2]; r2ring. Qed.
Lemma shear_action n s k : (k < 6)%nat -> mv 6 (flat 6 (shear_projection_ss n)) s k = 2 * dy (tshear s n) n k.
Proof.
  intros Hk. rewrite dy_table by exact Hk. unfold tshear, tnormal. unfold mv, flat. cbn [rsum].
  cases6 k Hk; cbn [Nat.mul Nat.add shear_projection_ss]; rewrite !traction_table by lia; cbn iota; r2ring.
Qed.
Lemma normal_action n s k : (k < 6)%nat -> mv 6 (flat 6 (normal_projection_ss n)) s k = tnormal s n * dy n n k.
Proof.
  intros Hk. rewrite dy_table by exact Hk. unfold tnormal. unfold mv, flat. cbn [rsum].
  cases6 k Hk; cbn [Nat.mul Nat.add normal_projection_ss]; rewrite !traction_table by lia; cbn iota; r2ring.
Qed.
Lemma traction_ext s s' n i : (i < 3)%nat -> veq 6 s s' -> traction s n i = traction s' n i.
Proof. intros Hi H. rewrite !traction_table by exact Hi. rewrite !H by lia. reflexivity. Qed.
Lemma traction_lin s a b x y n i : (i < 3)%nat -> traction (fun k => s k - x * a k - y * b k) n i = traction s n i - x * traction a n i - y * traction b n i.
Proof. intros Hi. rewrite !traction_table by exact Hi. cases3 i Hi; field. Qed.
Lemma traction_dy a b n i : (i < 3)%nat -> traction (dy a b) n i = (a i * rsum 3 (fun j => b j * n j) + b i * rsum 3 (fun j => a j * n j)) / 2.
Proof. intros Hi. unfold traction. cbn [rsum]. rewrite !usym_dy by lia. field. Qed.
Lemma tnormal_sum s n : tnormal s n = traction s n 0%nat * n 0%nat + traction s n 1%nat * n 1%nat + traction s n 2%nat * n 2%nat.
Proof. unfold tnormal. cbn [rsum]. ring. Qed.
Lemma tshear_normal s n : unit3 n -> rsum 3 (fun j => tshear s n j * n j) = 0.
Proof.
  intros U. unfold tshear. unfold unit3 in U. cbn [rsum] in *. transitivity (tnormal s n * (1 - (0 + n 0%nat * n 0%nat + n 1%nat * n 1%nat + n 2%nat * n 2%nat))).
  - rewrite tnormal_sum. ring.
  - rewrite U. ring.
Qed.
(** what the factor of one plane does: it scales the shear part and the normal part of the traction *)
Lemma factor_action ds dn n s k : (k < 6)%nat -> mv 6 (pd_factor ds dn n) s k = s k - (2 * ds) * dy (tshear s n) n k - (dn * tnormal s n) * dy n n k.
Proof.
  intros Hk. transitivity (s k - ds * mv 6 (flat 6 (shear_projection_ss n)) s k - dn * mv 6 (flat 6 (normal_projection_ss n)) s k).
  - unfold mv, pd_factor. rewrite <- !rsum_scal. rewrite <- (rsum_delta 6 k s Hk). rewrite <- !rsum_minus. apply rsum_ext. intros j _. ring.
  - rewrite shear_action, normal_action by exact Hk. ring.
Qed.
Lemma factor_traction ds dn n s i : unit3 n -> (i < 3)%nat ->
  traction (mv 6 (pd_factor ds dn n) s) n i = (1 - ds) * tshear s n i + (1 - dn) * (tnormal s n * n i).
Proof.
  intros U Hi. rewrite (traction_ext _ (fun k => s k - (2 * ds) * dy (tshear s n) n k - (dn * tnormal s n) * dy n n k)) by (try exact Hi; intros k Hk; apply factor_action; exact Hk).
  rewrite traction_lin by exact Hi. rewrite !traction_dy by exact Hi. rewrite tshear_normal by exact U. unfold unit3 in U. rewrite U. unfold tshear. field.
Qed.
Lemma factor_normal ds dn n s : unit3 n -> tnormal (mv 6 (pd_factor ds dn n) s) n = (1 - dn) * tnormal s n.
Proof.
  intros U. rewrite tnormal_sum, !factor_traction by (try exact U; lia). pose proof (tshear_normal s n U) as T. unfold unit3 in U. cbn [rsum] in *.
  transitivity ((1 - ds) * (0 + tshear s n 0%nat * n 0%nat + tshear s n 1%nat * n 1%nat + tshear s n 2%nat * n 2%nat) + (1 - dn) * tnormal s n * (0 + n 0%nat * n 0%nat + n 1%nat * n 1%nat + n 2%nat * n 2%nat)); [ring|].
  rewrite T, U. ring.
Qed.
Lemma factor_shear ds dn n s i : unit3 n -> (i < 3)%nat -> tshear (mv 6 (pd_factor ds dn n) s) n i = (1 - ds) * tshear s n i.
Proof. intros U Hi. unfold tshear at 1. rewrite factor_traction, factor_normal by assumption. ring. Qed.
Lemma dy_lin c a b k : (k < 6)%nat -> dy (fun i => c * a i) b k = c * dy a b k.
Proof. intros Hk. rewrite !dy_table by exact Hk. cases6 k Hk; field. Qed.
Lemma dy_ext a a' b k : (k < 6)%nat -> (forall i, (i < 3)%nat -> a i = a' i) -> dy a b k = dy a' b k.
Proof. intros Hk H. rewrite !dy_table by exact Hk. rewrite !H by lia. reflexivity. Qed.
(** two factors of the same plane compose *)
Lemma factor_factor ds dn es en n s k : unit3 n -> (k < 6)%nat ->
  mv 6 (pd_factor ds dn n) (mv 6 (pd_factor es en n) s) k = mv 6 (pd_factor (1 - (1 - ds) * (1 - es)) (1 - (1 - dn) * (1 - en)) n) s k.
Proof.
  intros U Hk. rewrite (factor_action ds dn), (factor_action (1 - _)), (factor_action es en) by exact Hk. rewrite factor_normal by exact U.
  rewrite (dy_ext (tshear (mv 6 (pd_factor es en n) s) n) (fun i => (1 - es) * tshear s n i) n k Hk) by (intros i Hi; apply factor_shear; assumption). rewrite dy_lin by exact Hk. ring.
Qed.
Lemma factor_zero n s k : (k < 6)%nat -> mv 6 (pd_factor 0 0 n) s k = s k.
Proof. intros Hk. rewrite factor_action by exact Hk. ring. Qed.
(** matrices from their action *)
Lemma mv_unit A i j : (j < 6)%nat -> mv 6 A (delta j) i = A i j.
Proof. intros Hj. unfold mv. rewrite (rsum_ext 6 _ (fun k => delta j k * A i k)) by (intros; ring). apply (rsum_delta 6 j (fun k => A i k) Hj). Qed.
Lemma mm_col A B i j : mm 6 A B i j = mv 6 A (fun k => B k j) i.
Proof. reflexivity. Qed.
Lemma mv_ext6 A v w i : veq 6 v w -> mv 6 A v i = mv 6 A w i.
Proof. intros H. unfold mv. apply rsum_ext. intros j Hj. rewrite H by exact Hj. reflexivity. Qed.
Lemma delta_sym i j : delta i j = delta j i.
Proof. unfold delta. rewrite Nat.eqb_sym. reflexivity. Qed.
Lemma factor_product ds dn es en n i j : unit3 n -> (i < 6)%nat -> (j < 6)%nat -> (1 - ds) * (1 - es) = 1 -> (1 - dn) * (1 - en) = 1 ->
  mm 6 (pd_factor ds dn n) (pd_factor es en n) i j = delta i j.
Proof.
  intros U Hi Hj H1 H2. rewrite mm_col. rewrite (mv_ext6 _ _ (mv 6 (pd_factor es en n) (delta j))) by (intros k Hk; symmetry; apply mv_unit; exact Hj).
  rewrite factor_factor by assumption. rewrite H1, H2. replace (1 - 1) with 0 by ring. rewrite factor_zero by exact Hi. apply delta_sym.
Qed.
Lemma factor_inverse ds dn n : unit3 n -> ds <> 1 -> dn <> 1 -> inverse_of 6 (pd_factor (1 - / (1 - ds)) (1 - / (1 - dn)) n) (pd_factor ds dn n).
Proof. intros U H1 H2 i j Hi Hj. split; apply factor_product; try assumption; field; lra. Qed.
Lemma mv_mm6 A B v i : mv 6 (mm 6 A B) v i = mv 6 A (mv 6 B v) i.
Proof.
  unfold mv, mm. rewrite (rsum_ext 6 _ (fun j => rsum 6 (fun k => A i k * B k j * v j))) by (intros j _; rewrite <- rsum_scal_r; reflexivity).
  rewrite rsum_swap. apply rsum_ext. intros k _. rewrite <- rsum_scal. apply rsum_ext. intros j _. ring.
Qed.
Lemma mv_delta v i : (i < 6)%nat -> mv 6 delta v i = v i.
Proof. intros Hi. unfold mv. apply (rsum_delta 6 i v Hi). Qed.
Lemma mv_0 A i : mv 6 A (fun _ => 0) i = 0.
Proof. unfold mv. rewrite (rsum_ext 6 _ (fun _ => 0)) by (intros; ring). apply rsum_0. Qed.
Lemma inverse_prod m F : (forall j, (j < m)%nat -> exists B, inverse_of 6 B (F j)) -> exists B, inverse_of 6 B (prod6 m F).
Proof.
  induction m as [|m IH]; intros H.
  - exists delta. intros i j Hi Hj. cbn [prod6]. split; apply (mm_id_l 6 delta delta i j); auto.
  - destruct IH as [B HB]; [intros j Hj; apply H; lia|]. destruct (H m (Nat.lt_succ_diag_r m)) as [G HG]. exists (mm 6 G B). intros i j Hi Hj. cbn [prod6]. split.
    + rewrite mm_assoc. rewrite (mm_congr 6 G _ (mm 6 (mm 6 B (prod6 m F)) (F m))) by (intros k Hk; symmetry; apply mm_assoc).
      rewrite (mm_congr 6 G _ (F m)) by (intros k Hk; apply (mm_id_l 6 (mm 6 B (prod6 m F)) (F m) k j); [intros l Hl; apply HB; assumption|exact Hk]). apply HG; assumption.
    + rewrite mm_assoc. rewrite (mm_congr 6 (prod6 m F) _ (mm 6 (mm 6 (F m) G) B)) by (intros k Hk; symmetry; apply mm_assoc).
      rewrite (mm_congr 6 (prod6 m F) _ B) by (intros k Hk; apply (mm_id_l 6 (mm 6 (F m) G) B k j); [intros l Hl; apply HG; assumption|exact Hk]). apply HB; assumption.
Qed.
(** a plane without any shear or any normal stiffness carries no stress of one kind *)
Lemma perpendicular n : unit3 n -> exists a, rsum 3 (fun j => a j * n j) = 0 /\ exists i, (i < 3)%nat /\ a i <> 0.
Proof.
  intros U. unfold unit3 in U. cbn [rsum] in U. destruct (Req_dec (n 0%nat) 0) as [E|N].
  - exists (fun i => match i with O => 1 | _ => 0 end). split; [cbn; rewrite E; ring|]. exists 0%nat. split; [lia|lra].
  - exists (fun i => match i with O => - n 1%nat | S O => n 0%nat | _ => 0 end). split; [cbn; ring|]. exists 1%nat. split; [lia|exact N].
Qed.
Lemma dy_zero b k : (k < 6)%nat -> dy (fun _ => 0) b k = 0.
Proof. intros Hk. rewrite dy_table by exact Hk. cases6 k Hk; field. Qed.
Lemma factor_singular ds dn n : unit3 n -> ds = 1 \/ dn = 1 -> exists v, (exists k, (k < 6)%nat /\ v k <> 0) /\ veq 6 (mv 6 (pd_factor ds dn n) v) (fun _ => 0).
Proof.
  intros U [->| ->].
  - destruct (perpendicular n U) as (a & Ha & i & Hi & Hn). exists (dy a n).
    assert (T : forall j, (j < 3)%nat -> traction (dy a n) n j = a j / 2). { intros j Hj. rewrite traction_dy by exact Hj. rewrite Ha. unfold unit3 in U. rewrite U. field. }
    assert (T0 : tnormal (dy a n) n = 0). { rewrite tnormal_sum, !T by lia. cbn [rsum] in Ha. lra. }
    split.
    + destruct (Req_dec (dy a n 0%nat) 0) as [Z0|]; [|exists 0%nat; split; [lia|assumption]].
      destruct (Req_dec (dy a n 1%nat) 0) as [Z1|]; [|exists 1%nat; split; [lia|assumption]]. destruct (Req_dec (dy a n 2%nat) 0) as [Z2|]; [|exists 2%nat; split; [lia|assumption]].
      destruct (Req_dec (dy a n 3%nat) 0) as [Z3|]; [|exists 3%nat; split; [lia|assumption]]. destruct (Req_dec (dy a n 4%nat) 0) as [Z4|]; [|exists 4%nat; split; [lia|assumption]].
      destruct (Req_dec (dy a n 5%nat) 0) as [Z5|]; [|exists 5%nat; split; [lia|assumption]].
      exfalso. apply Hn. pose proof (T i Hi) as E. rewrite (traction_ext _ (fun _ => 0)) in E by (try exact Hi; intros k Hk; cases6 k Hk; assumption).
      rewrite traction_table in E by exact Hi. assert (X : a i = 0); [|exact X]. transitivity (2 * (a i / 2)); [field|]. rewrite <- E. destruct i as [|[|i]]; field.
    + intros k Hk. rewrite factor_action by exact Hk. rewrite T0.
      rewrite (dy_ext (tshear (dy a n) n) (fun j => / 2 * a j) n k Hk) by (intros j Hj; unfold tshear; rewrite T, T0 by exact Hj; field). rewrite dy_lin by exact Hk. field.
  - exists (dy n n).
    assert (T : forall j, (j < 3)%nat -> traction (dy n n) n j = n j). { intros j Hj. rewrite traction_dy by exact Hj. unfold unit3 in U. rewrite U. field. }
    assert (T1 : tnormal (dy n n) n = 1). { rewrite tnormal_sum, !T by lia. unfold unit3 in U. cbn [rsum] in U. lra. }
    split.
    + unfold unit3 in U. cbn [rsum] in U. destruct (Req_dec (n 0%nat) 0) as [E0|N]; [|exists 0%nat; split; [lia|rewrite dy_table by lia; nra]].
      destruct (Req_dec (n 1%nat) 0) as [E1|N]; [|exists 1%nat; split; [lia|rewrite dy_table by lia; nra]]. exists 2%nat. split; [lia|]. rewrite dy_table by lia. rewrite E0, E1 in U. lra.
    + intros k Hk. rewrite factor_action by exact Hk. rewrite T1.
      rewrite (dy_ext (tshear (dy n n) n) (fun j => 0) n k Hk) by (intros j Hj; unfold tshear; rewrite T, T1 by exact Hj; ring). rewrite dy_zero by exact Hk. ring.
Qed.
Lemma prod_singular m (ds dn : nat -> R) (n : nat -> vec) : (forall j, (j < m)%nat -> unit3 (n j)) -> (exists j, (j < m)%nat /\ (ds j = 1 \/ dn j = 1)) ->
  exists v, (exists k, (k < 6)%nat /\ v k <> 0) /\ veq 6 (mv 6 (prod6 m (fun j => pd_factor (ds j) (dn j) (n j))) v) (fun _ => 0).
Proof.
  induction m as [|m IH]; intros U (j & Hj & Hd); [lia|].
  assert (Um : unit3 (n m)) by (apply U; lia). cbn [prod6].
  destruct (Req_dec (ds m) 1) as [E1|N1]; [|destruct (Req_dec (dn m) 1) as [E2|N2]].
  - destruct (factor_singular (ds m) (dn m) (n m) Um (or_introl E1)) as (v & Hv & Hz). exists v. split; [exact Hv|]. intros k Hk. rewrite mv_mm6, (mv_ext6 _ _ (fun _ => 0)) by exact Hz. apply mv_0.
  - destruct (factor_singular (ds m) (dn m) (n m) Um (or_intror E2)) as (v & Hv & Hz). exists v. split; [exact Hv|]. intros k Hk. rewrite mv_mm6, (mv_ext6 _ _ (fun _ => 0)) by exact Hz. apply mv_0.
  - assert (Hj' : (j < m)%nat). { destruct (Nat.eq_dec j m) as [->|]; [destruct Hd; contradiction|lia]. }
    destruct IH as (w & (k & Hk & Hw) & Hz); [intros i Hi; apply U; lia|exists j; split; assumption|].
    pose proof (factor_inverse (ds m) (dn m) (n m) Um N1 N2) as HG. set (G := pd_factor (1 - / (1 - ds m)) (1 - / (1 - dn m)) (n m)) in *.
    assert (FG : veq 6 (mv 6 (pd_factor (ds m) (dn m) (n m)) (mv 6 G w)) w).
    { intros i Hi. rewrite <- mv_mm6. unfold mv. rewrite (rsum_ext 6 _ (fun l => delta i l * w l)) by (intros l Hl; destruct (HG i l Hi Hl) as [_ ->]; reflexivity). apply (rsum_delta 6 i w Hi). }
    exists (mv 6 G w). split.
    + destruct (Req_dec (mv 6 G w 0%nat) 0) as [Z0|]; [|exists 0%nat; split; [lia|assumption]].
      destruct (Req_dec (mv 6 G w 1%nat) 0) as [Z1|]; [|exists 1%nat; split; [lia|assumption]]. destruct (Req_dec (mv 6 G w 2%nat) 0) as [Z2|]; [|exists 2%nat; split; [lia|assumption]].
      destruct (Req_dec (mv 6 G w 3%nat) 0) as [Z3|]; [|exists 3%nat; split; [lia|assumption]]. destruct (Req_dec (mv 6 G w 4%nat) 0) as [Z4|]; [|exists 4%nat; split; [lia|assumption]].
      destruct (Req_dec (mv 6 G w 5%nat) 0) as [Z5|]; [|exists 5%nat; split; [lia|assumption]].
      exfalso. apply Hw. rewrite <- (FG k Hk). rewrite (mv_ext6 _ _ (fun _ => 0)) by (intros l Hl; cases6 l Hl; assumption). apply mv_0.
    + intros i Hi. rewrite mv_mm6. rewrite (mv_ext6 _ _ w) by exact FG. apply Hz. exact Hi.
Qed.
Lemma singular_no_inverse A v : (exists k, (k < 6)%nat /\ v k <> 0) -> veq 6 (mv 6 A v) (fun _ => 0) -> ~ exists B, inverse_of 6 B A.
Proof.
  intros (k & Hk & Hv) Hz [B HB]. apply Hv. transitivity (mv 6 (mm 6 B A) v k).
  - unfold mv. rewrite (rsum_ext 6 _ (fun l => delta k l * v l)) by (intros l Hl; destruct (HB k l Hk Hl) as [-> _]; reflexivity). symmetry. apply (rsum_delta 6 k v Hk).
  - rewrite mv_mm6, (mv_ext6 _ _ (fun _ => 0)) by exact Hz. apply mv_0.
Qed.
(** invertible exactly when no plane is fully damaged *)
Lemma planar_invertible L r pl dm sh no s d : (forall j, (j < p_n pl)%nat -> unit3 (p_normal pl j)) ->
  ((exists B, inverse_of 6 B (cd_P (planar L r pl dm sh no) s d)) <->
   forall j, (j < p_n pl)%nat -> t_map sh (d j) (tnormal s (p_normal pl j)) <> 1 /\ t_map no (d j) (tnormal s (p_normal pl j)) <> 1).
Proof.
  intros U. cbn [planar cd_P]. split.
  - intros HB j Hj. 
    destruct (Req_dec (t_map sh (d j) (tnormal s (p_normal pl j))) 1) as [E|N]; [|destruct (Req_dec (t_map no (d j) (tnormal s (p_normal pl j))) 1) as [E|N']; [|split; assumption]]; exfalso.
    + destruct (prod_singular (p_n pl) (fun j => t_map sh (d j) (tnormal s (p_normal pl j))) (fun j => t_map no (d j) (tnormal s (p_normal pl j))) (p_normal pl) U) as (v & Hv & Hz); [exists j; auto|].
      exact (singular_no_inverse _ v Hv Hz HB).
    + destruct (prod_singular (p_n pl) (fun j => t_map sh (d j) (tnormal s (p_normal pl j))) (fun j => t_map no (d j) (tnormal s (p_normal pl j))) (p_normal pl) U) as (v & Hv & Hz); [exists j; auto|].
      exact (singular_no_inverse _ v Hv Hz HB).
  - intros H. apply inverse_prod. intros j Hj. destruct (H j Hj) as [H1 H2]. eexists. apply (factor_inverse _ _ (p_normal pl j)); [apply U; exact Hj|exact H1|exact H2].
Qed.
(** no damage, no effect *)
Lemma prod_id m F : (forall j, (j < m)%nat -> forall a b, (a < 6)%nat -> (b < 6)%nat -> F j a b = delta a b) -> forall a b, (a < 6)%nat -> (b < 6)%nat -> prod6 m F a b = delta a b.
Proof.
  induction m as [|m IH]; intros H a b Ha Hb; [reflexivity|]. cbn [prod6]. rewrite (mm_id_r 6 (F m) _ a b) by (try exact Hb; intros k Hk; apply H; lia || assumption). apply IH; [intros; apply H; lia || assumption|exact Ha|exact Hb].
Qed.
Lemma planar_undamaged L r pl dm sh no s d : (forall j, (j < p_n pl)%nat -> t_map sh (d j) (tnormal s (p_normal pl j)) = 0 /\ t_map no (d j) (tnormal s (p_normal pl j)) = 0) ->
  forall a b, (a < 6)%nat -> (b < 6)%nat -> cd_P (planar L r pl dm sh no) s d a b = delta a b.
Proof.
  intros H a b Ha Hb. cbn [planar cd_P]. apply prod_id; [|exact Ha|exact Hb]. intros j Hj x y Hx Hy. unfold pd_F. destruct (H j Hj) as [E1 E2].
  change (normal_stress s (p_normal pl j)) with (tnormal s (p_normal pl j)). cbv zeta. rewrite E1, E2. unfold pd_factor. ring.
Qed.
(** *** Derivatives of the projection *)
Lemma prod_ext m F G : (forall j, (j < m)%nat -> F j = G j) -> prod6 m F = prod6 m G.
Proof. induction m as [|m IH]; intros H; [reflexivity|]. cbn [prod6]. rewrite IH by (intros; apply H; lia). rewrite (H m) by lia. reflexivity. Qed.
Lemma D_prod m (F : R -> nat -> mat) (dF : nat -> mat) t (v : vec) :
  (forall j a b, (j < m)%nat -> (a < 6)%nat -> (b < 6)%nat -> is_derive (fun u => F u j a b) t (dF j a b * v j)) ->
  forall a b, (a < 6)%nat -> (b < 6)%nat -> is_derive (fun u => prod6 m (F u) a b) t (rsum m (fun x => prod6 m (fun j => if Nat.eqb x j then dF j else F t j) a b * v x)).
Proof.
  induction m as [|m IH]; intros H a b Ha Hb.
  - cbn. apply D_const.
  - cbn [prod6]. eapply D_eq.
    + unfold mm. apply (D_rsum 6 (fun u k => prod6 m (F u) a k * F u m k b)). intros k Hk. apply D_mult; [apply IH; [intros; apply H; lia || assumption|exact Ha|exact Hk]|apply H; lia || assumption].
    + cbv beta. rewrite rsum_plus. change (rsum (S m) ?f) with (rsum m f + f m). cbv beta. f_equal.
      * rewrite (rsum_ext m _ (fun x => rsum 6 (fun k => prod6 m (fun j => if Nat.eqb x j then dF j else F t j) a k * F t m k b) * v x)).
        2:{ intros x Hx. unfold mm. replace (Nat.eqb x m) with false by (symmetry; apply Nat.eqb_neq; lia). reflexivity. }
        rewrite (rsum_ext 6 _ (fun k => rsum m (fun x => prod6 m (fun j => if Nat.eqb x j then dF j else F t j) a k * F t m k b * v x))).
        2:{ intros k _. rewrite <- rsum_scal_r. apply rsum_ext. intros; ring. }
        rewrite rsum_swap. apply rsum_ext. intros x _. rewrite <- rsum_scal_r. reflexivity.
      * rewrite Nat.eqb_refl. rewrite (prod_ext m (fun j => if Nat.eqb m j then dF j else F t j) (F t)) by (intros j Hj; replace (Nat.eqb m j) with false by (symmetry; apply Nat.eqb_neq; lia); reflexivity).
        unfold mm. rewrite <- rsum_scal_r. apply rsum_ext. intros; ring.
Qed.
Lemma D_traction (s : R -> vec) t s' n : path 6 s t s' -> is_derive (fun u => tnormal (s u) n) t (tnormal s' n).
Proof.
  intros Hs. unfold tnormal. apply (D_rsum 3 (fun u i => traction (s u) n i * n i)). intros i Hi.
  eapply D_eq; [apply (D_mult (fun u => traction (s u) n i) (fun _ => n i) t (traction s' n i) 0); [|apply D_const]|cbv beta; ring].
  eapply D_ext; [intros u; symmetry; apply traction_table; exact Hi|]. rewrite traction_table by exact Hi.
  assert (K : forall k c, (k < 6)%nat -> is_derive (fun u => s u k * c) t (s' k * c)) by (intros k c Hk; eapply D_eq; [apply (D_mult (fun u => s u k) (fun _ => c)); [apply Hs; exact Hk|apply D_const]|cbv beta; ring]).
  assert (K2 : forall k c, (k < 6)%nat -> is_derive (fun u => s u k * r2 / 2 * c) t (s' k * r2 / 2 * c)) by (intros k c Hk; apply (D_ext (fun u => s u k * (r2 / 2 * c))); [intros; unfold Rdiv; ring|eapply D_eq; [apply (K k (r2 / 2 * c) Hk)|unfold Rdiv; ring]]).
  destruct i as [|[|i]]; apply D_plus; try apply D_plus; first [apply K; lia|apply K2; lia].
Qed.
(** all planes, when the transformations do not report a dependence on the normal stress *)
Lemma planar_projection L r pl dm sh no Psh Pno : trans_exact sh Psh -> trans_exact no Pno -> normal_free sh -> normal_free no ->
  projection_exact (planar L r pl dm sh no) (fun s d => forall j, (j < p_n pl)%nat -> Psh (d j) (tnormal s (p_normal pl j)) /\ Pno (d j) (tnormal s (p_normal pl j))).
Proof.
  intros HS HN FS FN s d t s' d' Hs Hd HQ i j Hi Hj. cbn [planar cd_P cd_P_s cd_P_h cd_n] in *.
  eapply D_eq.
  - apply (D_prod (p_n pl) (fun u => pd_F sh no pl (s u) (d u)) (pd_dF sh no pl (s t) (d t)) t d'); [|exact Hi|exact Hj].
    intros k a b Hk Ha Hb. unfold pd_F, pd_dF, pd_factor. cbv zeta. change (normal_stress ?x ?y) with (tnormal x y).
    destruct (HQ k Hk) as [Q1 Q2].
    pose proof (HS _ _ t _ _ (Hd k Hk) (D_traction s t s' (p_normal pl k) Hs) Q1) as D1. pose proof (HN _ _ t _ _ (Hd k Hk) (D_traction s t s' (p_normal pl k) Hs) Q2) as D2.
    rewrite FS in D1. rewrite FN in D2.
    eapply D_eq; [apply D_minus; [apply D_minus; [apply D_const|apply D_mult; [exact D1|apply D_const]]|apply D_mult; [exact D2|apply D_const]]|cbv beta; ring].
  - cbv beta. rewrite (rsum_ext 6 _ (fun _ => 0)), rsum_0, Rplus_0_l; [reflexivity|]. intros k _. rewrite (rsum_ext (p_n pl) _ (fun _ => 0)), rsum_0; [ring|].
    intros x _. unfold middle_dot_before, middle_dot_after. cbn [rsum]. unfold pd_mid, outer_product_k. cbv zeta. rewrite FS, FN. ring.
Qed.
(** and it stays invertible around a state in which no plane is fully damaged *)
Lemma D_avoids (f : R -> R) t l c : is_derive f t l -> f t <> c -> locally t (fun u => f u <> c).
Proof.
  intros D N. assert (C : continuous f t) by (apply (ex_derive_continuous (K := R_AbsRing) (V := R_NormedModule)); exists l; exact D).
  apply (C (fun y => y <> c)). assert (P : 0 < Rabs (f t - c)) by (apply Rabs_pos_lt; lra). exists (mkposreal _ P). intros y Hy E. unfold ball in Hy; cbn in Hy. unfold AbsRing_ball in Hy; cbn in Hy. unfold abs, minus, plus, opp in Hy; cbn in Hy.
  subst y. rewrite <- Rabs_Ropp in Hy. replace (- (c + - f t)) with (f t - c) in Hy by ring. lra.
Qed.
Lemma locally_all (m : nat) (Q : nat -> R -> Prop) t : (forall j, (j < m)%nat -> locally t (Q j)) -> locally t (fun u => forall j, (j < m)%nat -> Q j u).
Proof.
  induction m as [|m IH]; intros H; [exists (mkposreal 1 Rlt_0_1); intros; lia|].
  apply (filter_imp (fun u => (forall j, (j < m)%nat -> Q j u) /\ Q m u)).
  - intros u [A B] j Hj. destruct (Nat.eq_dec j m) as [->|]; [exact B|apply A; lia].
  - apply filter_and; [apply IH; intros; apply H; lia|apply H; lia].
Qed.
Lemma planar_stays L r pl dm sh no Psh Pno : (forall j, (j < p_n pl)%nat -> unit3 (p_normal pl j)) -> trans_exact sh Psh -> trans_exact no Pno ->
  stays_invertible (planar L r pl dm sh no) (fun s d => forall j, (j < p_n pl)%nat -> Psh (d j) (tnormal s (p_normal pl j)) /\ Pno (d j) (tnormal s (p_normal pl j)) /\
    t_map sh (d j) (tnormal s (p_normal pl j)) <> 1 /\ t_map no (d j) (tnormal s (p_normal pl j)) <> 1).
Proof.
  intros U HS HN s d t s' d' Hs Hd HQ.
  apply (filter_imp (fun u => forall j, (j < p_n pl)%nat -> t_map sh (d u j) (tnormal (s u) (p_normal pl j)) <> 1 /\ t_map no (d u j) (tnormal (s u) (p_normal pl j)) <> 1)).
  - intros u Hu. apply planar_invertible; assumption.
  - apply locally_all. intros j Hj. destruct (HQ j Hj) as (Q1 & Q2 & N1 & N2). apply filter_and.
    + eapply (D_avoids (fun u => t_map sh (d u j) (tnormal (s u) (p_normal pl j)))); [apply (HS _ _ t _ _ (Hd j Hj) (D_traction s t s' (p_normal pl j) Hs) Q1)|exact N1].
    + eapply (D_avoids (fun u => t_map no (d u j) (tnormal (s u) (p_normal pl j)))); [apply (HN _ _ t _ _ (Hd j Hj) (D_traction s t s' (p_normal pl j) Hs) Q2)|exact N2].
Qed.

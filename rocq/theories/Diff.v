(** What "is the derivative" means in every theorem, and the calculus used to
    establish it. *)
From Verif Require Import Base.

(** *** Specification *)

(** [path n c t v]: the curve c in R^n is differentiable at t with velocity v. *)
Definition path (n : nat) (c : R -> vec) (t : R) (v : vec) : Prop :=
  forall i, (i < n)%nat -> is_derive (fun u => c u i) t (v i).

(** [is_grad n P f df]: at every point of P, df is the gradient of f: f has the
    derivative df . v along every path with velocity v (this is
    differentiability in R^n; taking straight lines along the axes it gives all
    partial derivatives). *)
Definition is_grad (n : nat) (P : vec -> Prop) (f : vec -> R) (df : vec -> vec) : Prop :=
  forall c t v, path n c t v -> P (c t) ->
    is_derive (fun u => f (c u)) t (dot n (df (c t)) v).

(** [is_jac m n P F J]: at every point of P, J is the m x n Jacobian matrix of F. *)
Definition is_jac (m n : nat) (P : vec -> Prop) (F : vec -> vec) (J : vec -> mat) : Prop :=
  forall c t v, path n c t v -> P (c t) ->
    path m (fun u => F (c u)) t (mv n (J (c t)) v).

(** The same for functions of two vector arguments, differentiated jointly. *)
Definition is_grad2 (n m : nat) (P : vec -> vec -> Prop) (f : vec -> vec -> R)
    (da db : vec -> vec -> vec) : Prop :=
  forall a b t va vb, path n a t va -> path m b t vb -> P (a t) (b t) ->
    is_derive (fun u => f (a u) (b u)) t
      (dot n (da (a t) (b t)) va + dot m (db (a t) (b t)) vb).

Definition is_jac2 (k n m : nat) (P : vec -> vec -> Prop) (F : vec -> vec -> vec)
    (Ja Jb : vec -> vec -> mat) : Prop :=
  forall a b t va vb, path n a t va -> path m b t vb -> P (a t) (b t) ->
    path k (fun u => F (a u) (b u)) t
      (vadd (mv n (Ja (a t) (b t)) va) (mv m (Jb (a t) (b t)) vb)).

(** *** Calculus *)

Lemma D_eq (f : R -> R) (t a b : R) : is_derive f t a -> a = b -> is_derive f t b.
Proof. now intros H <-. Qed.

Lemma D_ext (f g : R -> R) (t a : R) :
  (forall u, f u = g u) -> is_derive f t a -> is_derive g t a.
Proof. intros H. apply is_derive_ext. exact H. Qed.

Lemma D_loc (f g : R -> R) (t a : R) :
  locally t (fun u => f u = g u) -> is_derive f t a -> is_derive g t a.
Proof. intros H. apply is_derive_ext_loc. exact H. Qed.

Lemma D_const (k t : R) : is_derive (fun _ : R => k) t 0.
Proof. exact (is_derive_const (K := R_AbsRing) (V := R_NormedModule) k t). Qed.

Lemma D_id (t : R) : is_derive (fun u : R => u) t 1.
Proof. exact (is_derive_id (K := R_AbsRing) t). Qed.

Lemma D_plus (f g : R -> R) (t a b : R) : is_derive f t a -> is_derive g t b ->
  is_derive (fun u => f u + g u) t (a + b).
Proof. intros; apply (is_derive_plus (K := R_AbsRing) (V := R_NormedModule) f g t a b); assumption. Qed.

Lemma D_minus (f g : R -> R) (t a b : R) : is_derive f t a -> is_derive g t b ->
  is_derive (fun u => f u - g u) t (a - b).
Proof. intros; apply (is_derive_minus (K := R_AbsRing) (V := R_NormedModule) f g t a b); assumption. Qed.

Lemma D_opp (f : R -> R) (t a : R) : is_derive f t a -> is_derive (fun u => - f u) t (- a).
Proof. intros; apply (is_derive_opp (K := R_AbsRing) (V := R_NormedModule) f t a); assumption. Qed.

Lemma D_mult (f g : R -> R) (t a b : R) : is_derive f t a -> is_derive g t b ->
  is_derive (fun u => f u * g u) t (a * g t + f t * b).
Proof.
  intros Hf Hg.
  apply (is_derive_mult (K := R_AbsRing) f g t a b Hf Hg).
  intros; apply Rmult_comm.
Qed.

Lemma D_comp (f g : R -> R) (t a b : R) : is_derive g t a -> is_derive f (g t) b ->
  is_derive (fun u => f (g u)) t (b * a).
Proof.
  intros Hg Hf. eapply D_eq.
  - apply (is_derive_comp f g t b a Hf Hg).
  - unfold scal; simpl; unfold mult; simpl; ring.
Qed.

Lemma D_inv (f : R -> R) (t a : R) : is_derive f t a -> f t <> 0 ->
  is_derive (fun u => / f u) t (- a / (f t * f t)).
Proof.
  intros H Hn. eapply D_eq. apply (is_derive_inv f t a H Hn). field. exact Hn.
Qed.

Lemma D_div (f g : R -> R) (t a b : R) : is_derive f t a -> is_derive g t b -> g t <> 0 ->
  is_derive (fun u => f u / g u) t ((a * g t - f t * b) / (g t * g t)).
Proof.
  intros Hf Hg Hn. unfold Rdiv at 1. eapply D_eq.
  - apply D_mult. exact Hf. apply D_inv; eassumption.
  - cbv beta; field. exact Hn.
Qed.

Lemma D_sqrt (f : R -> R) (t a : R) : is_derive f t a -> 0 < f t ->
  is_derive (fun u => sqrt (f u)) t (a / (2 * sqrt (f t))).
Proof.
  intros H Hp. eapply D_eq. eapply D_comp. exact H.
  apply is_derive_Reals, derivable_pt_lim_sqrt. exact Hp.
  field. apply Rgt_not_eq, sqrt_lt_R0, Hp.
Qed.

Lemma D_exp (f : R -> R) (t a : R) : is_derive f t a ->
  is_derive (fun u => exp (f u)) t (exp (f t) * a).
Proof. intros H. eapply D_comp. exact H. apply is_derive_Reals, derivable_pt_lim_exp. Qed.

Lemma D_ln (f : R -> R) (t a : R) : is_derive f t a -> 0 < f t ->
  is_derive (fun u => ln (f u)) t (a / f t).
Proof.
  intros H Hp. eapply D_eq. eapply D_comp. exact H.
  apply is_derive_Reals, derivable_pt_lim_ln. exact Hp. field. lra.
Qed.

Lemma D_sin (f : R -> R) (t a : R) : is_derive f t a ->
  is_derive (fun u => sin (f u)) t (cos (f t) * a).
Proof. intros H. eapply D_comp. exact H. apply is_derive_Reals, derivable_pt_lim_sin. Qed.

Lemma D_cos (f : R -> R) (t a : R) : is_derive f t a ->
  is_derive (fun u => cos (f u)) t (- sin (f t) * a).
Proof. intros H. eapply D_comp. exact H. apply is_derive_Reals, derivable_pt_lim_cos. Qed.

Lemma D_sinh (f : R -> R) (t a : R) : is_derive f t a ->
  is_derive (fun u => sinh (f u)) t (cosh (f t) * a).
Proof. intros H. eapply D_comp. exact H. apply is_derive_Reals, derivable_pt_lim_sinh. Qed.

Lemma D_cosh (f : R -> R) (t a : R) : is_derive f t a ->
  is_derive (fun u => cosh (f u)) t (sinh (f t) * a).
Proof. intros H. eapply D_comp. exact H. apply is_derive_Reals, derivable_pt_lim_cosh. Qed.

Lemma D_Rpower (f : R -> R) (y t a : R) : is_derive f t a -> 0 < f t ->
  is_derive (fun u => Rpower (f u) y) t (y * Rpower (f t) (y - 1) * a).
Proof.
  intros H Hp. eapply D_eq. eapply (D_comp (fun x => Rpower x y) f t a _ H).
  apply is_derive_Reals, derivable_pt_lim_power. exact Hp. ring.
Qed.

Lemma D_rsum (n : nat) (F : R -> nat -> R) (t : R) (d : nat -> R) :
  (forall i, (i < n)%nat -> is_derive (fun u => F u i) t (d i)) ->
  is_derive (fun u => rsum n (F u)) t (rsum n d).
Proof.
  induction n as [|n IH]; intros H; simpl.
  - apply D_const.
  - apply D_plus. apply IH. intros; apply H; lia. apply H; lia.
Qed.

(** local positivity from differentiability *)
Lemma D_cont (f : R -> R) (t a : R) : is_derive f t a -> continuous f t.
Proof. intros H. apply (ex_derive_continuous (V := R_NormedModule) f t). now exists a. Qed.

Lemma loc_gt (f : R -> R) (t a k : R) : is_derive f t a -> k < f t ->
  locally t (fun u => k < f u).
Proof.
  intros H Hp. apply D_cont in H.
  apply (H (fun y => k < y)). apply (open_gt k). exact Hp.
Qed.

Lemma loc_lt (f : R -> R) (t a k : R) : is_derive f t a -> f t < k ->
  locally t (fun u => f u < k).
Proof.
  intros H Hp. apply D_cont in H.
  apply (H (fun y => y < k)). apply (open_lt k). exact Hp.
Qed.

Lemma loc_neq (f : R -> R) (t a k : R) : is_derive f t a -> f t <> k ->
  locally t (fun u => f u <> k).
Proof.
  intros H Hn. destruct (Rtotal_order (f t) k) as [Hl|[He|Hg]].
  - generalize (loc_lt f t a k H Hl). apply filter_imp. intros u; lra.
  - contradiction.
  - generalize (loc_gt f t a k H Hg). apply filter_imp. intros u; lra.
Qed.

Lemma cpow_pos x y : 0 < x -> cpow x y = Rpower x y.
Proof. intros H. unfold cpow. destruct (Rlt_dec 0 x); [reflexivity|lra]. Qed.

Lemma D_cpow (f : R -> R) (y t a : R) : is_derive f t a -> 0 < f t ->
  is_derive (fun u => cpow (f u) y) t (y * cpow (f t) (y - 1) * a).
Proof.
  intros H Hp. rewrite cpow_pos by exact Hp.
  apply (D_loc (fun u => Rpower (f u) y)).
  - generalize (loc_gt f t a 0 H Hp). apply filter_imp. intros u Hu.
    now rewrite cpow_pos.
  - now apply D_Rpower.
Qed.

Lemma D_Rabs_pos (f : R -> R) (t a : R) : is_derive f t a -> 0 < f t ->
  is_derive (fun u => Rabs (f u)) t a.
Proof.
  intros H Hp. apply (D_loc f); [|exact H].
  generalize (loc_gt f t a 0 H Hp). apply filter_imp. intros u Hu.
  rewrite Rabs_pos_eq; lra.
Qed.

Lemma D_Rabs_neg (f : R -> R) (t a : R) : is_derive f t a -> f t < 0 ->
  is_derive (fun u => Rabs (f u)) t (- a).
Proof.
  intros H Hp. apply (D_loc (fun u => - f u)); [|now apply D_opp].
  generalize (loc_lt f t a 0 H Hp). apply filter_imp. intros u Hu.
  rewrite Rabs_left; lra.
Qed.

Lemma D_log10 (f : R -> R) (t a : R) : is_derive f t a -> 0 < f t ->
  is_derive (fun u => log10 (f u)) t (a / (f t * ln 10)).
Proof.
  intros H Hp. unfold log10, Rdiv at 1. eapply D_eq.
  - apply D_mult. apply D_ln; eassumption. apply D_const.
  - cbv beta. assert (ln 10 <> 0). { apply Rgt_not_eq. rewrite <- ln_1. apply ln_increasing; lra. }
    cbv beta; field. split; [assumption|lra].
Qed.

(** Syntax directed differentiation; leaves side conditions as goals. *)
Ltac dstep :=
  match goal with
  | H : is_derive ?f ?t _ |- is_derive ?f ?t _ => exact H
  | |- is_derive (fun u => u) _ _ => apply D_id
  | |- is_derive (fun _ => ?k) _ _ => apply D_const
  | |- is_derive (fun u => _ + _) _ _ => eapply D_plus
  | |- is_derive (fun u => _ - _) _ _ => eapply D_minus
  | |- is_derive (fun u => - _) _ _ => eapply D_opp
  | |- is_derive (fun u => _ * _) _ _ => eapply D_mult
  | |- is_derive (fun u => _ / _) _ _ => eapply D_div
  | |- is_derive (fun u => / _) _ _ => eapply D_inv
  | |- is_derive (fun u => sqrt _) _ _ => eapply D_sqrt
  | |- is_derive (fun u => exp _) _ _ => eapply D_exp
  | |- is_derive (fun u => ln _) _ _ => eapply D_ln
  | |- is_derive (fun u => log10 _) _ _ => eapply D_log10
  | |- is_derive (fun u => sin _) _ _ => eapply D_sin
  | |- is_derive (fun u => cos _) _ _ => eapply D_cos
  | |- is_derive (fun u => sinh _) _ _ => eapply D_sinh
  | |- is_derive (fun u => cosh _) _ _ => eapply D_cosh
  | |- is_derive (fun u => Rpower _ _) _ _ => eapply D_Rpower
  | |- is_derive (fun u => cpow _ _) _ _ => eapply D_cpow
  | |- is_derive (Rdiv ?a) ?t ?d => change (is_derive (fun u => a / u) t d)
  | |- is_derive (Rmult ?a) ?t ?d => change (is_derive (fun u => a * u) t d)
  | |- is_derive (Rplus ?a) ?t ?d => change (is_derive (fun u => a + u) t d)
  | |- is_derive (Rminus ?a) ?t ?d => change (is_derive (fun u => a - u) t d)
  | |- is_derive Ropp ?t ?d => change (is_derive (fun u => - u) t d)
  | |- is_derive sqrt _ _ => eapply (D_sqrt (fun u => u)); [apply D_id|..]
  | |- is_derive exp _ _ => eapply (D_exp (fun u => u)); apply D_id
  | |- is_derive ln _ _ => eapply (D_ln (fun u => u)); [apply D_id|..]
  | |- is_derive log10 _ _ => eapply (D_log10 (fun u => u)); [apply D_id|..]
  | |- is_derive sin _ _ => eapply (D_sin (fun u => u)); apply D_id
  | |- is_derive cos _ _ => eapply (D_cos (fun u => u)); apply D_id
  | |- is_derive sinh _ _ => eapply (D_sinh (fun u => u)); apply D_id
  | |- is_derive cosh _ _ => eapply (D_cosh (fun u => u)); apply D_id
  end.
Ltac dall := repeat dstep.

(** *** Finite sums *)
Lemma rsum_ext n f g : (forall i, (i < n)%nat -> f i = g i) -> rsum n f = rsum n g.
Proof. induction n as [|n IH]; simpl; intros H; [reflexivity|]. rewrite IH, H; auto. Qed.

Lemma rsum_0 n : rsum n (fun _ => 0) = 0.
Proof. induction n as [|n IH]; simpl; [reflexivity|]. rewrite IH; ring. Qed.

Lemma rsum_plus n f g : rsum n (fun i => f i + g i) = rsum n f + rsum n g.
Proof. induction n as [|n IH]; simpl; [ring|]. rewrite IH; ring. Qed.

Lemma rsum_minus n f g : rsum n (fun i => f i - g i) = rsum n f - rsum n g.
Proof. induction n as [|n IH]; simpl; [ring|]. rewrite IH; ring. Qed.

Lemma rsum_scal n k f : rsum n (fun i => k * f i) = k * rsum n f.
Proof. induction n as [|n IH]; simpl; [ring|]. rewrite IH; ring. Qed.

Lemma rsum_scal_r n k f : rsum n (fun i => f i * k) = rsum n f * k.
Proof. induction n as [|n IH]; simpl; [ring|]. rewrite IH; ring. Qed.

Lemma rsum_opp n f : rsum n (fun i => - f i) = - rsum n f.
Proof. induction n as [|n IH]; simpl; [ring|]. rewrite IH; ring. Qed.

Lemma rsum_swap n m (f : nat -> nat -> R) :
  rsum n (fun i => rsum m (fun j => f i j)) = rsum m (fun j => rsum n (fun i => f i j)).
Proof.
  induction n as [|n IH]; simpl.
  - now rewrite rsum_0.
  - rewrite IH, <- rsum_plus. reflexivity.
Qed.

Lemma rsum_delta n i f : (i < n)%nat -> rsum n (fun j => delta i j * f j) = f i.
Proof.
  unfold delta. induction n as [|n IH]; [lia|]. intros H; simpl.
  destruct (Nat.eqb_spec i n) as [->|Hn].
  - rewrite (rsum_ext n _ (fun _ => 0)), rsum_0; [ring|].
    intros j Hj. destruct (Nat.eqb_spec n j); [lia|ring].
  - rewrite IH by lia. ring.
Qed.

Lemma delta_sym i j : delta i j = delta j i.
Proof. unfold delta. rewrite Nat.eqb_sym. reflexivity. Qed.

Lemma delta_refl i : delta i i = 1.
Proof. unfold delta. now rewrite Nat.eqb_refl. Qed.

Lemma rsum_nonneg n f : (forall i, (i < n)%nat -> 0 <= f i) -> 0 <= rsum n f.
Proof.
  induction n as [|n IH]; simpl; intros H; [lra|].
  generalize (H n ltac:(lia)) (IH ltac:(auto)). lra.
Qed.

Lemma rsum_app n m f : rsum (n + m) f = rsum n f + rsum m (fun i => f (n + i)%nat).
Proof.
  induction m as [|m IH]; simpl.
  - rewrite Nat.add_0_r. ring.
  - rewrite Nat.add_succ_r. simpl. rewrite IH. ring.
Qed.

Lemma dot_comm n a b : dot n a b = dot n b a.
Proof. apply rsum_ext. intros; ring. Qed.

Lemma dot_ext n a a' b b' : veq n a a' -> veq n b b' -> dot n a b = dot n a' b'.
Proof. intros Ha Hb. apply rsum_ext. intros i Hi. now rewrite Ha, Hb. Qed.

Lemma dot_nonneg n a : 0 <= dot n a a.
Proof. apply rsum_nonneg. intros; apply Rle_0_sqr. Qed.

Lemma rsum_zero_inv n f : (forall i, (i < n)%nat -> 0 <= f i) -> rsum n f = 0 ->
  forall i, (i < n)%nat -> f i = 0.
Proof.
  induction n as [|n IH]; simpl; intros Hp H i Hi; [lia|].
  assert (Hs : 0 <= rsum n f) by (apply rsum_nonneg; intros; apply Hp; lia).
  assert (Hn : 0 <= f n) by (apply Hp; lia).
  destruct (Nat.eq_dec i n) as [->|Hne]; [lra|].
  apply IH; [intros; apply Hp; lia|lra|lia].
Qed.

Lemma dot_zero_inv n a : dot n a a = 0 -> veq n a vzero.
Proof.
  intros H i Hi. apply Rsqr_0_uniq. unfold Rsqr.
  apply (rsum_zero_inv n (fun i => a i * a i)); auto. intros; apply Rle_0_sqr.
Qed.

Lemma norm2_nonneg n a : 0 <= norm2 n a.
Proof. apply sqrt_pos. Qed.

Lemma norm2_sqr n a : norm2 n a * norm2 n a = dot n a a.
Proof. apply sqrt_sqrt, dot_nonneg. Qed.

Lemma norm2_pos_dot n a : 0 < norm2 n a -> 0 < dot n a a.
Proof.
  intros H. generalize (dot_nonneg n a). intros [Hp|He]; [exact Hp|].
  unfold norm2 in H. rewrite <- He, sqrt_0 in H. lra.
Qed.

Lemma D_dot n (a b : R -> vec) t va vb : path n a t va -> path n b t vb ->
  is_derive (fun u => dot n (a u) (b u)) t (dot n va (b t) + dot n (a t) vb).
Proof.
  intros Ha Hb. unfold dot. rewrite <- rsum_plus.
  apply (D_rsum n (fun u i => a u i * b u i)).
  intros i Hi. eapply D_eq. apply D_mult; [apply Ha|apply Hb]; assumption. cbv beta; ring.
Qed.

Lemma D_norm2 n (a : R -> vec) t va : path n a t va -> 0 < norm2 n (a t) ->
  is_derive (fun u => norm2 n (a u)) t (dot n (a t) va / norm2 n (a t)).
Proof.
  intros Ha Hp. unfold norm2. eapply D_eq. apply D_sqrt.
  - apply D_dot; eassumption.
  - now apply norm2_pos_dot.
  - rewrite (dot_comm n va). field. unfold norm2 in Hp. lra.
Qed.

(** straight lines are paths: partial and directional derivatives follow *)
Lemma path_line n x w : path n (fun u i => x i + u * w i) 0 w.
Proof. intros i _. eapply D_eq. dall. cbv beta; ring. Qed.

Lemma is_grad_directional n P f df x w : is_grad n P f df -> P x ->
  is_derive (fun u => f (fun i => x i + u * w i)) 0 (dot n (df x) w).
Proof.
  intros H Hx.
  assert (E : (fun i => x i + 0 * w i) = x).
  { apply FunctionalExtensionality.functional_extensionality. intros; ring. }
  generalize (H _ 0 w (path_line n x w)). cbv beta. rewrite E. auto.
Qed.

Lemma is_grad_partial n P f df x j : is_grad n P f df -> P x -> (j < n)%nat ->
  is_derive (fun u => f (fun i => x i + u * delta j i)) 0 (df x j).
Proof.
  intros H Hx Hj. eapply D_eq. apply (is_grad_directional n P f df x (delta j) H Hx).
  unfold dot. rewrite <- (rsum_delta n j (df x) Hj). apply rsum_ext. intros; ring.
Qed.

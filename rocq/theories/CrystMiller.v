(** Miller indices and the reciprocal lattice *)
From Coq Require Import String ZArith Lra Lia Psatz Bool.
From Verif Require Import Base NemlMathModel NemlMathSpec NemlMathProofs GcdProofs RotModel RotSpec RotProofs TensorModel CrystModel CrystSpec CrystProofs.

Lemma dot3_ndot : forall a b, dot3 a b = ndot a b.
Proof. intros; unfold dot3, ndot; cbn; ring. Qed.
Lemma cross3_ncross : forall a b i, (i < 3)%nat -> cross3 a b i = ncross a b i.
Proof. intros a b i H; cases3 i H; cbn; ring. Qed.

Lemma recip_dual : forall a b c, cell_volume a b c <> 0 ->
  ndot (recip a b c) a = 1 /\ ndot (recip a b c) b = 0 /\ ndot (recip a b c) c = 0.
Proof.
  intros a b c V. assert (V' : dot3 a (cross3 b c) <> 0).
  { intros E; apply V. rewrite <- E. unfold cell_volume, dot3, ndot; cbn; ring. }
  unfold recip. set (d := dot3 a (cross3 b c)) in *.
  unfold ndot; cbn. repeat split; try (field_simplify; [|exact V']).
  - apply (Rmult_eq_reg_r d); [|exact V']. field_simplify; [|exact V']. unfold d, dot3, cross3; ring.
  - apply (Rmult_eq_reg_r d); [|exact V']. field_simplify; [|exact V']. ring.
  - apply (Rmult_eq_reg_r d); [|exact V']. field_simplify; [|exact V']. ring.
Qed.
Lemma volume_cycle : forall a b c, cell_volume b c a = cell_volume a b c.
Proof. intros; unfold cell_volume; cbn; ring. Qed.
Lemma reciprocal_lattice : forall L, cell_volume (c1 L) (c2 L) (c3 L) <> 0 ->
  (ndot (cb1 L) (c1 L) = 1 /\ ndot (cb1 L) (c2 L) = 0 /\ ndot (cb1 L) (c3 L) = 0) /\
  (ndot (cb2 L) (c1 L) = 0 /\ ndot (cb2 L) (c2 L) = 1 /\ ndot (cb2 L) (c3 L) = 0) /\
  (ndot (cb3 L) (c1 L) = 0 /\ ndot (cb3 L) (c2 L) = 0 /\ ndot (cb3 L) (c3 L) = 1).
Proof.
  intros L V. unfold cb1, cb2, cb3.
  destruct (recip_dual _ _ _ V) as (A & B & C).
  rewrite <- volume_cycle in V. destruct (recip_dual _ _ _ V) as (A' & B' & C').
  rewrite <- volume_cycle in V. destruct (recip_dual _ _ _ V) as (A'' & B'' & C''). repeat split; assumption.
Qed.

Lemma miller_comb_ok : forall x y z h k l, ~ (h = 0 /\ k = 0 /\ l = 0)%Z ->
  exists s h' k' l' v, (0 < s /\ h = s * h' /\ k = s * k' /\ l = s * l')%Z /\ no_common_factor h' k' l' /\
  miller_comb x y z [h; k; l] = Some v /\ forall i, v i = IZR h' * x i + IZR k' * y i + IZR l' * z i.
Proof.
  intros x y z h k l N. destruct (reduce_ok [h; k; l]) as (s & r & S & E & M & D).
  { destruct (Z.eq_dec h 0) as [->|]; [|exists h; cbn; auto]. destruct (Z.eq_dec k 0) as [->|]; [|exists k; cbn; auto].
    exists l; cbn; split; [auto|]. intros ->; apply N; auto. }
  destruct r as [|h' [|k' [|l' [|]]]]; try discriminate. injection M as -> -> ->.
  exists s, h', k', l', (vsum3 (vs (IZR h') x) (vs (IZR k') y) (vs (IZR l') z)).
  repeat split; auto.
  - intros d A B C. apply D. constructor; [exact A|]. constructor; [exact B|]. constructor; [exact C|]. constructor.
  - unfold miller_comb. cbn -[reduce_gcd]. rewrite E. reflexivity.
Qed.
Lemma miller_comb_bad : forall x y z m, length m <> 3%nat \/ List.Forall (fun n => n = 0%Z) m -> miller_comb x y z m = None.
Proof.
  intros x y z m H. unfold miller_comb. destruct (Nat.eqb_spec (length m) 3) as [E|]; auto.
  destruct H as [H|H]; [congruence|]. rewrite reduce_zero; auto. intros ->; discriminate.
Qed.
Lemma miller_direction : forall L u v w, ~ (u = 0 /\ v = 0 /\ w = 0)%Z ->
  exists s u' v' w' x, (0 < s /\ u = s * u' /\ v = s * v' /\ w = s * w')%Z /\ no_common_factor u' v' w' /\
  miller2cart_direction L [u; v; w] = Some x /\ forall i, x i = IZR u' * c1 L i + IZR v' * c2 L i + IZR w' * c3 L i.
Proof. intros L u v w N. apply miller_comb_ok; exact N. Qed.
Lemma ndot_comb : forall a b c p q r x, ndot (fun i => p * a i + q * b i + r * c i) x = p * ndot a x + q * ndot b x + r * ndot c x.
Proof. intros; unfold ndot; cbn; ring. Qed.
Lemma ndot_ext : forall a b x, (forall i, a i = b i) -> ndot a x = ndot b x.
Proof. intros a b x H; unfold ndot; cbn; rewrite !H; reflexivity. Qed.
Lemma miller_plane : forall L h k l, cell_volume (c1 L) (c2 L) (c3 L) <> 0 -> ~ (h = 0 /\ k = 0 /\ l = 0)%Z ->
  exists s h' k' l' n, (0 < s /\ h = s * h' /\ k = s * k' /\ l = s * l')%Z /\ no_common_factor h' k' l' /\
  miller2cart_plane L [h; k; l] = Some n /\ ndot n (c1 L) = IZR h' /\ ndot n (c2 L) = IZR k' /\ ndot n (c3 L) = IZR l'.
Proof.
  intros L h k l V N. destruct (miller_comb_ok (cb1 L) (cb2 L) (cb3 L) h k l N) as (s & h' & k' & l' & n & E & C & M & X).
  exists s, h', k', l', n. split; [exact E|]. split; [exact C|]. split; [exact M|].
  destruct (reciprocal_lattice L V) as ((A1 & A2 & A3) & (B1 & B2 & B3) & (D1 & D2 & D3)).
  rewrite !(ndot_ext _ _ _ X), !ndot_comb, A1, A2, A3, B1, B2, B3, D1, D2, D3. repeat split; ring.
Qed.
Lemma ndot_comm : forall a b, ndot a b = ndot b a.
Proof. intros; unfold ndot; cbn; ring. Qed.
Lemma all_zero3 : forall h k l, {(h = 0 /\ k = 0 /\ l = 0)%Z} + {~ (h = 0 /\ k = 0 /\ l = 0)%Z}.
Proof. intros. destruct (Z.eq_dec h 0), (Z.eq_dec k 0), (Z.eq_dec l 0); intuition lia. Qed.
Lemma miller_inner : forall L u v w h k l x n, cell_volume (c1 L) (c2 L) (c3 L) <> 0 ->
  miller2cart_direction L [u; v; w] = Some x -> miller2cart_plane L [h; k; l] = Some n ->
  exists s, (0 < s)%Z /\ IZR s * ndot x n = IZR (h * u + k * v + l * w).
Proof.
  intros L u v w h k l x n V Ex En.
  destruct (all_zero3 u v w) as [(-> & -> & ->)|Nu].
  { unfold miller2cart_direction in Ex. rewrite miller_comb_bad in Ex; [discriminate|]. right; repeat constructor. }
  destruct (all_zero3 h k l) as [(-> & -> & ->)|Nh].
  { unfold miller2cart_plane in En. rewrite miller_comb_bad in En; [discriminate|]. right; repeat constructor. }
  destruct (miller_direction L u v w Nu) as (s & u' & v' & w' & x' & (S & -> & -> & ->) & _ & Ex' & X).
  destruct (miller_plane L h k l V Nh) as (t & h' & k' & l' & n' & (T & -> & -> & ->) & _ & En' & N1 & N2 & N3).
  rewrite Ex in Ex'. injection Ex' as <-. rewrite En in En'. injection En' as <-.
  exists (s * t)%Z. split; [lia|].
  rewrite (ndot_ext _ _ _ X), ndot_comb, !(ndot_comm _ n), N1, N2, N3.
  rewrite !plus_IZR, !mult_IZR. ring.
Qed.
Lemma miller_wrong : forall L m, length m <> 3%nat \/ List.Forall (fun n => n = 0%Z) m ->
  miller2cart_direction L m = None /\ miller2cart_plane L m = None.
Proof. intros; split; apply miller_comb_bad; auto. Qed.

(** ** four indices *)
Lemma hcp_direction_ok : forall L u v t w, (u + v + t = 0)%Z -> ~ (u = 0 /\ v = 0 /\ w = 0)%Z ->
  exists s x, (0 < s)%Z /\ hcp_direction L [u; v; t; w] = Some x /\ lattice_vec (c1 L) (c2 L) (c3 L) x /\
  forall i, IZR s * x i = IZR u * c1 L i + IZR v * c2 L i + IZR t * (- c1 L i - c2 L i) + IZR w * c3 L i.
Proof.
  intros L u v t w S N. unfold hcp_direction. rewrite (proj2 (Z.eqb_eq _ _) S).
  destruct (miller_direction L (2 * u + v) (2 * v + u) w) as (s & u' & v' & w' & x & (P & E1 & E2 & E3) & _ & M & X).
  { intros (A & B & C). apply N. lia. }
  exists s, x. split; [exact P|]. split; [exact M|]. split; [exists u', v', w'; intros; apply X|].
  intros i. rewrite X. replace t with (- u - v)%Z by lia. rewrite minus_IZR, opp_IZR.
  apply (f_equal IZR) in E1, E2, E3. rewrite ?plus_IZR, ?mult_IZR in E1, E2, E3.
  replace (IZR s * (IZR u' * c1 L i + IZR v' * c2 L i + IZR w' * c3 L i))
    with ((IZR s * IZR u') * c1 L i + (IZR s * IZR v') * c2 L i + (IZR s * IZR w') * c3 L i) by ring.
  rewrite <- E1, <- E2, <- E3. rewrite !plus_IZR, !mult_IZR. ring.
Qed.
Lemma hcp_inner : forall L u v t w h k i l x n, cell_volume (c1 L) (c2 L) (c3 L) <> 0 ->
  hcp_direction L [u; v; t; w] = Some x -> hcp_plane L [h; k; i; l] = Some n ->
  exists s, (0 < s)%Z /\ IZR s * ndot x n = IZR (h * u + k * v + i * t + l * w).
Proof.
  intros L u v t w h k i l x n V Ex En. unfold hcp_direction in Ex. unfold hcp_plane in En.
  destruct (Z.eqb_spec (u + v + t) 0) as [A|]; [|discriminate]. destruct (Z.eqb_spec (h + k + i) 0) as [B|]; [|discriminate].
  destruct (miller_inner L _ _ _ _ _ _ x n V Ex En) as (s & S & E). exists s; split; [exact S|]. rewrite E. apply (f_equal IZR).
  replace t with (- u - v)%Z by lia. replace i with (- h - k)%Z by lia. ring.
Qed.
Lemma hcp_wrong : forall L u v t w, (u + v + t <> 0)%Z -> hcp_direction L [u; v; t; w] = None /\ hcp_plane L [u; v; t; w] = None.
Proof. intros L u v t w S. unfold hcp_direction, hcp_plane. destruct (Z.eqb_spec (u + v + t) 0); [contradiction|auto]. Qed.
Lemma hcp_wrong_length : forall L m, length m <> 4%nat -> hcp_direction L m = None /\ hcp_plane L m = None.
Proof. intros L m H. destruct m as [|? [|? [|? [|? [|]]]]]; cbn in *; auto; congruence. Qed.

(** ** the two named lattices *)
Lemma cubic_cell_ok : forall a, 0 < a ->
  cell_volume (c1 (cubic_cell a)) (c2 (cubic_cell a)) (c3 (cubic_cell a)) = a * a * a /\
  forall m x, miller2cart_direction (cubic_cell a) m = Some x ->
    exists n, miller2cart_plane (cubic_cell a) m = Some n /\ forall i, (i < 3)%nat -> x i = a * a * n i.
Proof.
  intros a A. split; [unfold cell_volume; cbn; ring|].
  intros m x E. unfold miller2cart_direction, miller2cart_plane, miller_comb in *.
  destruct (Nat.eqb (length m) 3); [|discriminate]. destruct (reduce_gcd m) as [[|h [|k [|l [|]]]]|]; try discriminate.
  injection E as <-. eexists; split; [reflexivity|]. intros i Hi.
  unfold vsum3, vs, cb1, cb2, cb3, recip, dot3; cases3 i Hi; cbn; field; lra.
Qed.
Lemma hcp_cell_ok : forall a c, 0 < a -> 0 < c -> let L := hcp_cell a c in
  ndot (c1 L) (c1 L) = a * a /\ ndot (c2 L) (c2 L) = a * a /\ ndot (c3 L) (c3 L) = c * c /\
  ndot (c1 L) (c2 L) = a * a * cos (2 * PI / 3) /\ ndot (c1 L) (c3 L) = 0 /\ ndot (c2 L) (c3 L) = 0 /\
  0 < cell_volume (c1 L) (c2 L) (c3 L).
Proof.
  intros a c A C L. assert (S : sqrt 3 * sqrt 3 = 3) by (apply sqrt_sqrt; lra).
  assert (S0 : 0 < sqrt 3) by (apply sqrt_lt_R0; lra).
  replace (2 * PI / 3) with (2 * (PI / 3)) by field. rewrite cos_2PI3. unfold L, hcp_cell, cell_volume, ndot, ncross; cbn.
  repeat split; try (nra).
  replace (0 + a / 2 * (sqrt 3 * a / 2 * c - 0 * 0) + - sqrt 3 * a / 2 * (0 * 0 - a / 2 * c) + 0 * (a / 2 * 0 - sqrt 3 * a / 2 * 0))
    with (sqrt 3 * (a * a * c) / 2) by field. assert (0 < a * a * c) by (repeat apply Rmult_lt_0_compat; assumption). assert (0 < sqrt 3 * (a * a * c)) by (apply Rmult_lt_0_compat; assumption). lra.
Qed.

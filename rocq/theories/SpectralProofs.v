(** The contract [eig_ok] of the symmetric eigenvalue routines is satisfiable: every symmetric 3x3
    matrix has an ordered orthonormal eigenbasis. *)
From Verif Require Import Base.
From Verif Require Import NemlMathModel NemlMathSpec NemlMathProofs SubstepModel SurfModel PlastModel CreepModel DamageModel DamageSpec.

Record v3 := V3 { vx : R; vy : R; vz : R }.
Definition d3 (p q : v3) : R := vx p * vx q + vy p * vy q + vz p * vz q.
Definition cr3 (p q : v3) : v3 := V3 (vy p * vz q - vz p * vy q) (vz p * vx q - vx p * vz q) (vx p * vy q - vy p * vx q).
Definition sc3 (k : R) (p : v3) : v3 := V3 (k * vx p) (k * vy p) (k * vz p).
Definition ad3 (p q : v3) : v3 := V3 (vx p + vx q) (vy p + vy q) (vz p + vz q).
(** symmetric matrix: diagonal a b c, off-diagonal yz d, xz e, xy f *)
Record s3 := S3 { sa : R; sb : R; sc : R; sd : R; se : R; sf : R }.
Definition ap3 (A : s3) (p : v3) : v3 :=
  V3 (sa A * vx p + sf A * vy p + se A * vz p) (sf A * vx p + sb A * vy p + sd A * vz p) (se A * vx p + sd A * vy p + sc A * vz p).
Definition det3 (A : s3) : R := sa A * (sb A * sc A - sd A * sd A) - sf A * (sf A * sc A - sd A * se A) + se A * (sf A * sd A - sb A * se A).
Definition shift (A : s3) (l : R) : s3 := S3 (sa A - l) (sb A - l) (sc A - l) (sd A) (se A) (sf A).
Lemma cubic_root (c2 c1 c0 : R) : {x : R | x * x * x + c2 * (x * x) + c1 * x + c0 = 0}.
Proof.
  set (f := fun x => x * x * x + c2 * (x * x) + c1 * x + c0). set (M := 1 + Rabs c2 + Rabs c1 + Rabs c0).
  pose proof (Rabs_pos c2) as P2. pose proof (Rabs_pos c1) as P1. pose proof (Rabs_pos c0) as P0.
  assert (H2 := Rle_abs c2). assert (H1 := Rle_abs c1). assert (H0 := Rle_abs c0).
  assert (G2 := Rle_abs (- c2)). assert (G1 := Rle_abs (- c1)). assert (G0 := Rle_abs (- c0)). rewrite Rabs_Ropp in G2, G1, G0.
  assert (HM : 1 <= M) by (unfold M; lra).
  assert (Cf : continuity f) by (unfold f; reg).
  destruct (IVT_cor f (- M) M Cf ltac:(lra)) as (x & _ & Hx).
  - assert (B1 : M <= M * M) by nra. assert (B3 : 0 <= M * M) by nra.
    assert (T2 : Rabs c2 * (M * M) <= (M - 1 - Rabs c1 - Rabs c0) * (M * M)) by (unfold M; nra).
    assert (T1 : Rabs c1 * M <= Rabs c1 * (M * M)) by (apply Rmult_le_compat_l; assumption).
    assert (T0 : Rabs c0 <= Rabs c0 * (M * M)) by nra.
    assert (FP : 0 <= f M). { unfold f. assert (- (Rabs c2 * (M * M)) <= c2 * (M * M)) by nra. assert (- (Rabs c1 * M) <= c1 * M) by nra. nra. }
    assert (FN : f (- M) <= 0). { unfold f. assert (c2 * (M * M) <= Rabs c2 * (M * M)) by nra. assert (c1 * - M <= Rabs c1 * M) by nra. nra. }
    nra.
  - exists x. exact Hx.
Qed.
Lemma eigenvalue (A : s3) : {l : R | det3 (shift A l) = 0}.
Proof.
  destruct (cubic_root (- (sa A + sb A + sc A)) (sa A * sb A + sb A * sc A + sa A * sc A - sd A * sd A - se A * se A - sf A * sf A) (- det3 A)) as (x & H).
  exists x. unfold det3, shift in *. cbn [sa sb sc sd se sf]. lra.
Qed.
Definition nz (p : v3) : Prop := d3 p p <> 0.
Lemma nz_dec p : {nz p} + {vx p = 0 /\ vy p = 0 /\ vz p = 0}.
Proof.
  unfold nz, d3. destruct (Req_EM_T (vx p * vx p + vy p * vy p + vz p * vz p) 0) as [E|N]; [right|left; exact N]. repeat split; nra.
Qed.
(** a non zero vector in the kernel of a singular symmetric matrix *)
Lemma kernel (B : s3) : det3 B = 0 -> {n : v3 | nz n /\ vx (ap3 B n) = 0 /\ vy (ap3 B n) = 0 /\ vz (ap3 B n) = 0}.
Proof.
  intros H. destruct B as [a b c d e f]. unfold det3 in H. cbn [sa sb sc sd se sf] in H.
  set (r0 := V3 a f e). set (r1 := V3 f b d). set (r2 := V3 e d c).
  destruct (nz_dec (cr3 r0 r1)) as [N|(Z1 & Z2 & Z3)].
  { exists (cr3 r0 r1). split; [exact N|]. unfold ap3, cr3, r0, r1. cbn [vx vy vz sa sb sc sd se sf]. repeat split; lra. }
  destruct (nz_dec (cr3 r0 r2)) as [N|(Y1 & Y2 & Y3)].
  { exists (cr3 r0 r2). split; [exact N|]. unfold ap3, cr3, r0, r2. cbn [vx vy vz sa sb sc sd se sf]. repeat split; lra. }
  destruct (nz_dec (cr3 r1 r2)) as [N|(X1 & X2 & X3)].
  { exists (cr3 r1 r2). split; [exact N|]. unfold ap3, cr3, r1, r2. cbn [vx vy vz sa sb sc sd se sf]. repeat split; lra. }
  unfold cr3, r0, r1, r2 in *. cbn [vx vy vz] in *.
  assert (P : forall r : v3, (r = r0 \/ r = r1 \/ r = r2) ->
     let k1 := V3 (vy r) (- vx r) 0 in let k2 := V3 (vz r) 0 (- vx r) in let k3 := V3 0 (vz r) (- vy r) in
     (forall k, k = k1 \/ k = k2 \/ k = k3 -> vx (ap3 (S3 a b c d e f) k) = 0 /\ vy (ap3 (S3 a b c d e f) k) = 0 /\ vz (ap3 (S3 a b c d e f) k) = 0)).
  { intros r Hr k1 k2 k3 k Hk. unfold k1, k2, k3, r0, r1, r2, ap3 in *. destruct Hr as [->|[->| ->]]; destruct Hk as [->|[->| ->]]; cbn [vx vy vz sa sb sc sd se sf]; repeat split; lra. }
  assert (Q : forall r : v3, (r = r0 \/ r = r1 \/ r = r2) -> nz r -> {n : v3 | nz n /\ vx (ap3 (S3 a b c d e f) n) = 0 /\ vy (ap3 (S3 a b c d e f) n) = 0 /\ vz (ap3 (S3 a b c d e f) n) = 0}).
  { intros r Hr Hn. specialize (P r Hr). cbv zeta in P.
    destruct (nz_dec (V3 (vy r) (- vx r) 0)) as [N|(E1 & E2 & _)]; [eexists; split; [exact N|]; apply P; auto|].
    destruct (nz_dec (V3 (vz r) 0 (- vx r))) as [N|(E3 & _)]; [eexists; split; [exact N|]; apply P; auto|].
    exfalso. cbn [vx vy vz] in *. apply Hn. unfold d3. rewrite E1, E3. assert (vx r = 0) by lra. rewrite H0. ring. }
  destruct (nz_dec r0) as [N|(A1 & A2 & A3)]; [apply (Q r0); auto|].
  destruct (nz_dec r1) as [N|(B1 & B2 & B3)]; [apply (Q r1); auto|].
  destruct (nz_dec r2) as [N|(C1 & C2 & C3)]; [apply (Q r2); auto|].
  exists (V3 1 0 0). unfold r0, r1, r2 in *. cbn [vx vy vz] in *. unfold nz, d3, ap3. cbn [vx vy vz sa sb sc sd se sf]. split; [lra|]. repeat split; lra.
Qed.
Definition unit (p : v3) : Prop := d3 p p = 1.
Definition eigp (A : s3) (l : R) (p : v3) : Prop := ap3 A p = sc3 l p.
Lemma v3_eq p q : vx p = vx q -> vy p = vy q -> vz p = vz q -> p = q.
Proof. destruct p, q. cbn. intros -> -> ->. reflexivity. Qed.
Lemma normalise p : nz p -> {k : R | unit (sc3 k p)}.
Proof.
  intros H. exists (/ sqrt (d3 p p)). assert (P : 0 < d3 p p) by (unfold nz, d3 in *; nra). pose proof (sqrt_lt_R0 _ P) as Q.
  unfold unit. replace (d3 (sc3 (/ sqrt (d3 p p)) p) (sc3 (/ sqrt (d3 p p)) p)) with (/ sqrt (d3 p p) * / sqrt (d3 p p) * d3 p p) by (unfold d3, sc3; cbn [vx vy vz]; ring).
  rewrite <- (sqrt_sqrt (d3 p p)) at 3 by lra. field. lra.
Qed.
Lemma eigenvector (A : s3) : {l : R & {n : v3 | unit n /\ eigp A l n}}.
Proof.
  destruct (eigenvalue A) as (l & H). exists l. destruct (kernel _ H) as (n & N & E1 & E2 & E3). destruct (normalise n N) as (k & U). exists (sc3 k n). split; [exact U|].
  unfold ap3, shift in E1, E2, E3. cbn [vx vy vz sa sb sc sd se sf] in *. unfold eigp, ap3, sc3. apply v3_eq; cbn [vx vy vz].
  - replace (l * (k * vx n)) with (l * (k * vx n) + k * ((sa A - l) * vx n + sf A * vy n + se A * vz n)) by (rewrite E1; ring). ring.
  - replace (l * (k * vy n)) with (l * (k * vy n) + k * (sf A * vx n + (sb A - l) * vy n + sd A * vz n)) by (rewrite E2; ring). ring.
  - replace (l * (k * vz n)) with (l * (k * vz n) + k * (se A * vx n + sd A * vy n + (sc A - l) * vz n)) by (rewrite E3; ring). ring.
Qed.
Lemma complete (n : v3) : unit n -> {p : v3 & {q : v3 | unit p /\ unit q /\ d3 n p = 0 /\ d3 n q = 0 /\ d3 p q = 0}}.
Proof.
  intros U.
  assert (H : {p : v3 | unit p /\ d3 n p = 0}).
  { destruct (nz_dec (V3 (- vy n) (vx n) 0)) as [N|(E1 & E2 & _)].
    - destruct (normalise _ N) as (k & K). eexists. split; [exact K|]. unfold d3, sc3. cbn [vx vy vz]. ring.
    - cbn [vx vy vz] in E1, E2. exists (V3 1 0 0). unfold unit, d3. cbn [vx vy vz]. split; [ring|]. rewrite E2. ring. }
  destruct H as (p & Up & O). exists p, (cr3 n p). split; [exact Up|]. unfold unit in *. split.
  - assert (d3 (cr3 n p) (cr3 n p) = d3 n n * d3 p p - d3 n p * d3 n p) as -> by (unfold d3, cr3; cbn [vx vy vz]; ring). rewrite U, Up, O. ring.
  - split; [exact O|]. unfold d3, cr3. cbn [vx vy vz]. split; ring.
Qed.
(** 2x2: a unit eigenvector (c, s) of [[a b] [b g]] *)
Lemma plane (a b g : R) : {c : R & {s : R | c * c + s * s = 1 /\ (a * c + b * s) * s = (b * c + g * s) * c}}.
Proof.
  set (D := sqrt ((a - g) / 2 * ((a - g) / 2) + b * b)). assert (HD : D * D = (a - g) / 2 * ((a - g) / 2) + b * b) by (apply sqrt_sqrt; pose proof (Rle_0_sqr ((a - g) / 2)) as Q1; pose proof (Rle_0_sqr b) as Q2; unfold Rsqr in Q1, Q2; lra).
  set (m := (a + g) / 2 + D). set (p := V3 b (m - a) 0).
  destruct (nz_dec p) as [N|(E1 & E2 & _)].
  - destruct (normalise _ N) as (k & K). exists (k * b), (k * (m - a)). unfold unit, d3, sc3, p in K. cbn [vx vy vz] in K. split; [lra|].
    assert (Q : (m - a) * (m - g) = b * b) by (unfold m; nra). assert (Q2 : k * k * b * ((m - a) * (m - g)) = k * k * b * (b * b)) by (rewrite Q; reflexivity). nra.
  - cbn [p vx vy vz] in E1, E2. exists 1, 0. split; [ring|]. rewrite E1. ring.
Qed.
Definition basis (A : s3) (l0 l1 l2 : R) (p0 p1 p2 : v3) : Prop :=
  unit p0 /\ unit p1 /\ unit p2 /\ d3 p0 p1 = 0 /\ d3 p0 p2 = 0 /\ d3 p1 p2 = 0 /\ eigp A l0 p0 /\ eigp A l1 p1 /\ eigp A l2 p2.
Lemma ap_sym A p q : d3 p (ap3 A q) = d3 (ap3 A p) q.
Proof. unfold d3, ap3. cbn [vx vy vz]. ring. Qed.
(** a vector orthogonal to an orthonormal basis is zero *)
Lemma ortho_expand n p q z : unit n -> unit p -> unit q -> d3 n p = 0 -> d3 n q = 0 -> d3 p q = 0 ->
  z = ad3 (sc3 (d3 n z) n) (ad3 (sc3 (d3 p z) p) (sc3 (d3 q z) q)).
Proof.
  intros Un Up Uq O1 O2 O3.
  set (y := ad3 z (sc3 (-1) (ad3 (sc3 (d3 n z) n) (ad3 (sc3 (d3 p z) p) (sc3 (d3 q z) q))))).
  assert (Y1 : d3 n y = 0). { replace (d3 n y) with (d3 n z - (d3 n z * d3 n n + d3 p z * d3 n p + d3 q z * d3 n q)) by (unfold y, d3, ad3, sc3; cbn [vx vy vz]; ring). rewrite Un, O1, O2. ring. }
  assert (Y2 : d3 p y = 0). { replace (d3 p y) with (d3 p z - (d3 n z * d3 n p + d3 p z * d3 p p + d3 q z * d3 p q)) by (unfold y, d3, ad3, sc3; cbn [vx vy vz]; ring). rewrite Up, O1, O3. ring. }
  assert (Y3 : d3 q y = 0). { replace (d3 q y) with (d3 q z - (d3 n z * d3 n q + d3 p z * d3 p q + d3 q z * d3 q q)) by (unfold y, d3, ad3, sc3; cbn [vx vy vz]; ring). rewrite Uq, O2, O3. ring. }
  (* Gram determinant *)
  assert (G : d3 n (cr3 p q) * d3 n (cr3 p q) = 1).
  { replace (d3 n (cr3 p q) * d3 n (cr3 p q)) with
      (d3 n n * (d3 p p * d3 q q - d3 p q * d3 p q) - d3 n p * (d3 n p * d3 q q - d3 p q * d3 n q) + d3 n q * (d3 n p * d3 p q - d3 p p * d3 n q)) by (unfold d3, cr3; cbn [vx vy vz]; ring).
    rewrite Un, Up, Uq, O1, O2, O3. ring. }
  set (t := d3 n (cr3 p q)) in *.
  assert (Z : forall w, t * d3 w y = 0).
  { intros w. replace (t * d3 w y) with (d3 n y * d3 w (cr3 p q) + d3 p y * d3 w (cr3 q n) + d3 q y * d3 w (cr3 n p)) by (unfold t, d3, cr3; cbn [vx vy vz]; ring). rewrite Y1, Y2, Y3. ring. }
  assert (Z2 : forall w, d3 w y = 0) by (intros w; specialize (Z w); nra).
  assert (Zx := Z2 (V3 1 0 0)). assert (Zy := Z2 (V3 0 1 0)). assert (Zz := Z2 (V3 0 0 1)). unfold d3 in Zx, Zy, Zz. cbn [vx vy vz] in Zx, Zy, Zz.
  unfold y, ad3, sc3 in Zx, Zy, Zz. cbn [vx vy vz] in Zx, Zy, Zz. apply v3_eq; unfold ad3, sc3; cbn [vx vy vz]; lra.
Qed.
Lemma spectral (A : s3) : {l0 : R & {l1 : R & {l2 : R & {p0 : v3 & {p1 : v3 & {p2 : v3 | basis A l0 l1 l2 p0 p1 p2}}}}}}.
Proof.
  destruct (eigenvector A) as (l & n & Un & En). destruct (complete n Un) as (p & q & Up & Uq & O1 & O2 & O3).
  set (a := d3 p (ap3 A p)). set (b := d3 p (ap3 A q)). set (g := d3 q (ap3 A q)).
  assert (Ap : ap3 A p = ad3 (sc3 a p) (sc3 b q)).
  { rewrite (ortho_expand n p q (ap3 A p) Un Up Uq O1 O2 O3). rewrite (ap_sym A n p), (ap_sym A q p). fold a.
    replace (d3 (ap3 A n) p) with 0 by (rewrite En; transitivity (l * d3 n p); [rewrite O1; ring|unfold d3, sc3; cbn [vx vy vz]; ring]).
    replace (d3 (ap3 A q) p) with b by (unfold b, d3; ring). apply v3_eq; unfold ad3, sc3; cbn [vx vy vz]; ring. }
  assert (Aq : ap3 A q = ad3 (sc3 b p) (sc3 g q)).
  { rewrite (ortho_expand n p q (ap3 A q) Un Up Uq O1 O2 O3). rewrite (ap_sym A n q). fold b g.
    replace (d3 (ap3 A n) q) with 0 by (rewrite En; transitivity (l * d3 n q); [rewrite O2; ring|unfold d3, sc3; cbn [vx vy vz]; ring]).
    apply v3_eq; unfold ad3, sc3; cbn [vx vy vz]; ring. }
  destruct (plane a b g) as (c & s & N1 & N2).
  pose (y := ad3 (sc3 c p) (sc3 s q)). pose (z := ad3 (sc3 (- s) p) (sc3 c q)).
  assert (AL : forall k m, ap3 A (ad3 (sc3 k p) (sc3 m q)) = ad3 (sc3 (k * a + m * b) p) (sc3 (k * b + m * g) q)).
  { intros k m. replace (ap3 A (ad3 (sc3 k p) (sc3 m q))) with (ad3 (sc3 k (ap3 A p)) (sc3 m (ap3 A q))) by (apply v3_eq; unfold ap3, ad3, sc3; cbn [vx vy vz]; ring).
    rewrite Ap, Aq. apply v3_eq; unfold ad3, sc3; cbn [vx vy vz]; ring. }
  assert (E1 : eigp A (c * (c * a + s * b) + s * (c * b + s * g)) y).
  { unfold eigp, y. rewrite AL.
    replace (c * a + s * b) with (c * (c * (c * a + s * b) + s * (c * b + s * g))) at 1.
    2:{ transitivity ((c * c) * (a * c + b * s) + s * ((b * c + g * s) * c)); [ring|]. rewrite <- N2. transitivity ((c * c + s * s) * (a * c + b * s)); [ring|]. rewrite N1. ring. }
    replace (c * b + s * g) with (s * (c * (c * a + s * b) + s * (c * b + s * g))) at 2.
    2:{ transitivity (c * ((a * c + b * s) * s) + (s * s) * (b * c + g * s)); [ring|]. rewrite N2. transitivity ((c * c + s * s) * (b * c + g * s)); [ring|]. rewrite N1. ring. }
    apply v3_eq; unfold ad3, sc3; cbn [vx vy vz]; ring. }
  assert (E2 : eigp A (- s * (- s * a + c * b) + c * (- s * b + c * g)) z).
  { unfold eigp, z. rewrite AL.
    assert (K : (- s * a + c * b) * c = (- s * b + c * g) * - s) by lra.
    replace (- s * a + c * b) with (- s * (- s * (- s * a + c * b) + c * (- s * b + c * g))) at 1.
    2:{ transitivity ((s * s) * (- s * a + c * b) + c * ((- s * b + c * g) * - s)); [ring|]. rewrite <- K. transitivity ((c * c + s * s) * (- s * a + c * b)); [ring|]. rewrite N1. ring. }
    replace (- s * b + c * g) with (c * (- s * (- s * a + c * b) + c * (- s * b + c * g))) at 2.
    2:{ transitivity (- s * ((- s * a + c * b) * c) + (c * c) * (- s * b + c * g)); [ring|]. rewrite K. transitivity ((c * c + s * s) * (- s * b + c * g)); [ring|]. rewrite N1. ring. }
    apply v3_eq; unfold ad3, sc3; cbn [vx vy vz]; ring. }
  eexists l, _, _, n, y, z. unfold basis. split; [exact Un|].
  assert (Dy : forall k m k' m', d3 (ad3 (sc3 k p) (sc3 m q)) (ad3 (sc3 k' p) (sc3 m' q)) = k * k' * d3 p p + (k * m' + m * k') * d3 p q + m * m' * d3 q q) by (intros; unfold d3, ad3, sc3; cbn [vx vy vz]; ring).
  assert (Dn : forall k m, d3 n (ad3 (sc3 k p) (sc3 m q)) = k * d3 n p + m * d3 n q) by (intros; unfold d3, ad3, sc3; cbn [vx vy vz]; ring).
  unfold unit in Up, Uq. split; [unfold unit, y; rewrite Dy, Up, Uq, O3; lra|]. split; [unfold unit, z; rewrite Dy, Up, Uq, O3; lra|].
  split; [unfold y; rewrite Dn, O1, O2; ring|]. split; [unfold z; rewrite Dn, O1, O2; ring|]. split; [unfold y, z; rewrite Dy, Up, Uq, O3; ring|].
  split; [exact En|]. split; [exact E1|exact E2].
Qed.
Lemma basis01 A l0 l1 l2 p0 p1 p2 : basis A l0 l1 l2 p0 p1 p2 -> basis A l1 l0 l2 p1 p0 p2.
Proof. intros (A1 & A2 & A3 & A4 & A5 & A6 & A7 & A8 & A9). unfold basis. repeat (split; try assumption). unfold d3 in *. lra. Qed.
Lemma basis12 A l0 l1 l2 p0 p1 p2 : basis A l0 l1 l2 p0 p1 p2 -> basis A l0 l2 l1 p0 p2 p1.
Proof. intros (A1 & A2 & A3 & A4 & A5 & A6 & A7 & A8 & A9). unfold basis. repeat (split; try assumption). unfold d3 in *. lra. Qed.
Lemma spectral_sorted (A : s3) : {l0 : R & {l1 : R & {l2 : R & {p0 : v3 & {p1 : v3 & {p2 : v3 | basis A l0 l1 l2 p0 p1 p2 /\ l0 <= l1 <= l2}}}}}}.
Proof.
  destruct (spectral A) as (l0 & l1 & l2 & p0 & p1 & p2 & B).
  assert (G : forall l0 l1 l2 p0 p1 p2, basis A l0 l1 l2 p0 p1 p2 -> l0 <= l1 ->
    {l0 : R & {l1 : R & {l2 : R & {p0 : v3 & {p1 : v3 & {p2 : v3 | basis A l0 l1 l2 p0 p1 p2 /\ l0 <= l1 <= l2}}}}}}).
  { clear. intros l0 l1 l2 p0 p1 p2 B L. destruct (Rle_dec l1 l2) as [L1|L1]; [exists l0, l1, l2, p0, p1, p2; split; [exact B|lra]|].
    destruct (Rle_dec l0 l2) as [L2|L2]; [exists l0, l2, l1, p0, p2, p1; split; [apply basis12, B|lra]|].
    exists l2, l0, l1, p2, p0, p1. split; [apply basis01, basis12, B|lra]. }
  destruct (Rle_dec l0 l1) as [L|L]; [apply (G _ _ _ _ _ _ B L)|]. apply (G _ _ _ _ _ _ (basis01 _ _ _ _ _ _ _ B)). lra.
Qed.
(** the Mandel stress as a symmetric matrix *)
Definition mand (s : vec) : s3 := S3 (t2 (usym s) 0 0) (t2 (usym s) 1 1) (t2 (usym s) 2 2) (t2 (usym s) 1 2) (t2 (usym s) 0 2) (t2 (usym s) 0 1).
Definition lst (l : list R) : vec := fun i => nth i l 0.
Definition rows (p0 p1 p2 : v3) : vec := lst [vx p0; vy p0; vz p0; vx p1; vy p1; vz p1; vx p2; vy p2; vz p2].
Definition eig_of (s : vec) : {v : vec & {w : vec | v 0%nat <= v 1%nat <= v 2%nat /\
  (forall k l, (k < 3)%nat -> (l < 3)%nat -> rsum 3 (fun i => w (3 * k + i)%nat * w (3 * l + i)%nat) = delta k l) /\
  (forall i j, (i < 3)%nat -> (j < 3)%nat -> rsum 3 (fun k => w (3 * k + i)%nat * w (3 * k + j)%nat) = delta i j) /\
  (forall k i, (k < 3)%nat -> (i < 3)%nat -> rsum 3 (fun j => t2 (usym s) i j * w (3 * k + j)%nat) = v k * w (3 * k + i)%nat)}}.
Proof.
  destruct (spectral_sorted (mand s)) as (l0 & l1 & l2 & p0 & p1 & p2 & (U0 & U1 & U2 & O1 & O2 & O3 & E0 & E1 & E2) & L).
  exists (lst [l0; l1; l2]), (rows p0 p1 p2). split; [exact L|]. split; [|split].
  - intros k l Hk Hl. unfold rows, lst. unfold unit, d3 in *. do 3 (destruct k as [|k]; [do 3 (destruct l as [|l]; [cbn; lra|]); lia|]). lia.
  - intros i j Hi Hj.
    pose proof (ortho_expand p0 p1 p2 (V3 1 0 0) U0 U1 U2 O1 O2 O3) as X. pose proof (ortho_expand p0 p1 p2 (V3 0 1 0) U0 U1 U2 O1 O2 O3) as Y. pose proof (ortho_expand p0 p1 p2 (V3 0 0 1) U0 U1 U2 O1 O2 O3) as Z.
    pose proof (f_equal vx X) as Xx. pose proof (f_equal vy X) as Xy. pose proof (f_equal vz X) as Xz.
    pose proof (f_equal vx Y) as Yx. pose proof (f_equal vy Y) as Yy. pose proof (f_equal vz Y) as Yz.
    pose proof (f_equal vx Z) as Zx. pose proof (f_equal vy Z) as Zy. pose proof (f_equal vz Z) as Zz. clear X Y Z.
    unfold ad3, sc3, d3 in Xx, Xy, Xz, Yx, Yy, Yz, Zx, Zy, Zz. cbn [vx vy vz] in Xx, Xy, Xz, Yx, Yy, Yz, Zx, Zy, Zz.
    unfold rows, lst. do 3 (destruct i as [|i]; [do 3 (destruct j as [|j]; [cbn; lra|]); lia|]). lia.
  - assert (SY : t2 (usym s) 1 0 = t2 (usym s) 0 1 /\ t2 (usym s) 2 0 = t2 (usym s) 0 2 /\ t2 (usym s) 2 1 = t2 (usym s) 1 2) by (repeat split; apply usym_is_sym; lia).
    destruct SY as (S1 & S2 & S3).
    intros k i Hk Hi. unfold eigp, ap3, sc3, mand in *. cbn [sa sb sc sd se sf] in *.
    pose proof (f_equal vx E0) as Xx. pose proof (f_equal vy E0) as Xy. pose proof (f_equal vz E0) as Xz.
    pose proof (f_equal vx E1) as Yx. pose proof (f_equal vy E1) as Yy. pose proof (f_equal vz E1) as Yz.
    pose proof (f_equal vx E2) as Zx. pose proof (f_equal vy E2) as Zy. pose proof (f_equal vz E2) as Zz. cbn [vx vy vz] in *.
    unfold rows, lst. do 3 (destruct k as [|k]; [do 3 (destruct i as [|i]; [cbn [rsum Nat.mul Nat.add nth]; rewrite ?S1, ?S2, ?S3; lra|]); lia|]). lia.
Qed.
Definition eigv_of (s : vec) : option vec := Some (projT1 (eig_of s)).
Definition eigw_of (s : vec) : option vec := Some (proj1_sig (projT2 (eig_of s))).
Lemma eig_of_ok : eig_ok eigv_of eigw_of.
Proof.
  intros s. unfold eigv_of, eigw_of. destruct (eig_of s) as (v & w & H). exists v, w. split; [reflexivity|]. split; [reflexivity|]. exact H.
Qed.

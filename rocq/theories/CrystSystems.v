(** Numbering, planes, cached rotations and twin systems *)
From Coq Require Import String ZArith Lra Lia Psatz Bool.
From Verif Require Import Base Diff NemlMathModel NemlMathSpec NemlMathProofs RotModel RotSpec RotProofs RotConv RotTensor TensorModel TensorSpec TensorProofs.
From Verif Require Import CrystModel CrystSpec CrystProofs CrystMiller CrystLattice.

(** ** numbering *)
Lemma nth_split_firstn : forall (l : list nat) g n, nth_error l g = Some n -> total l = (total (firstn g l) + n + total (skipn (S g) l))%nat.
Proof.
  intros l g n H. rewrite <- (firstn_skipn g l) at 1. rewrite total_app.
  assert (E : skipn g l = n :: skipn (S g) l).
  { revert g H; induction l as [|a l IH]; intros [|g] H; cbn in *; try discriminate; [congruence|]. apply IH; exact H. }
  rewrite E. cbn [total]. lia.
Qed.
Lemma total_firstn_S : forall (l : list nat) g n, nth_error l g = Some n -> total (firstn (S g) l) = (total (firstn g l) + n)%nat.
Proof. induction l as [|a l IH]; intros [|g] n H; try discriminate; cbn in *; [injection H as ->; lia|]. rewrite (IH g n H); lia. Qed.
Lemma total_firstn_mono : forall (l : list nat) g h, (g <= h)%nat -> (total (firstn g l) <= total (firstn h l))%nat.
Proof. induction l as [|a l IH]; intros g h H; [now rewrite !firstn_nil|]. destruct g, h; cbn; try lia. apply le_n_S in H. specialize (IH g h). lia. Qed.
Lemma offsets_value : forall L g n, lattice_ok L -> nth_error (sizes L) g = Some n -> nth_error (la_offsets L) g = Some (total (firstn g (sizes L))).
Proof.
  intros L g n (A & B & _) H. assert (Hg : (g < length (sizes L))%nat) by (apply nth_error_Some; congruence).
  unfold sizes in Hg. rewrite map_length in Hg. fold (ngroup L) in Hg.
  destruct (nth_error (la_offsets L) g) as [o|] eqn:E; [f_equal; apply B; exact E|]. apply nth_error_None in E; lia.
Qed.
Lemma nslip_sizes : forall L g, nslip L g = nth_error (sizes L) g.
Proof. intros; unfold nslip, sizes. now rewrite nth_error_map. Qed.
Lemma flat_range : forall L g i n, lattice_ok L -> nslip L g = Some n -> (i < n)%nat -> exists f, lflat L g i = Some f /\ (f < ntotal L)%nat.
Proof.
  intros L g i n K H Hi. rewrite nslip_sizes in H. unfold lflat. rewrite (offsets_value L g n K H). eexists; split; [reflexivity|].
  rewrite ntotal_total, (nth_split_firstn _ _ _ H). lia.
Qed.
Lemma flat_injective : forall L g i n h j m f, lattice_ok L -> nslip L g = Some n -> (i < n)%nat -> nslip L h = Some m -> (j < m)%nat ->
  lflat L g i = Some f -> lflat L h j = Some f -> g = h /\ i = j.
Proof.
  intros L g i n h j m f K Hg Hi Hh Hj Fg Fh. rewrite nslip_sizes in Hg, Hh. unfold lflat in *.
  rewrite (offsets_value L g n K Hg) in Fg. rewrite (offsets_value L h m K Hh) in Fh. cbn in Fg, Fh. injection Fg as Fg; injection Fh as Fh.
  pose proof (total_firstn_S _ _ _ Hg). pose proof (total_firstn_S _ _ _ Hh).
  destruct (Nat.lt_trichotomy g h) as [X|[->|X]].
  - pose proof (total_firstn_mono (sizes L) (S g) h ltac:(lia)). lia.
  - split; [reflexivity|lia].
  - pose proof (total_firstn_mono (sizes L) (S h) g ltac:(lia)). lia.
Qed.
Lemma total_find : forall (l : list nat) f, (f < total l)%nat -> exists g n i, nth_error l g = Some n /\ (i < n)%nat /\ f = (total (firstn g l) + i)%nat.
Proof.
  induction l as [|a l IH]; intros f H; cbn in H; [lia|]. destruct (le_lt_dec a f) as [X|X].
  - destruct (IH (f - a)%nat ltac:(lia)) as (g & n & i & A & B & C). exists (S g), n, i. cbn. repeat split; auto. lia.
  - exists O, a, f. cbn. repeat split; auto.
Qed.
Lemma flat_surjective : forall L f, lattice_ok L -> (f < ntotal L)%nat -> exists g n i, nslip L g = Some n /\ (i < n)%nat /\ lflat L g i = Some f.
Proof.
  intros L f K H. rewrite ntotal_total in H. destruct (total_find _ _ H) as (g & n & i & A & B & C).
  exists g, n, i. rewrite nslip_sizes. repeat split; auto. unfold lflat. rewrite (offsets_value L g n K A). cbn. congruence.
Qed.
Lemma get_sys_iff : forall L g i, (exists s, get_sys L g i = Some s) <-> exists n, nslip L g = Some n /\ (i < n)%nat.
Proof.
  intros L g i. unfold get_sys, nslip. destruct (nth_error (la_groups L) g) as [G|]; cbn.
  - split; [intros (s & H); exists (length (g_sys G)); split; auto; apply nth_error_Some; congruence|].
    intros (n & E & H). injection E as <-. apply nth_error_Some in H. destruct (nth_error (g_sys G) i) as [s|]; [exists s; auto|congruence].
  - split; intros (x & H); [discriminate|destruct H; discriminate].
Qed.
Lemma groups_nonempty : forall L g n, lattice_ok L -> nslip L g = Some n -> (0 < n)%nat.
Proof. intros L g n (_ & _ & C & _) H. rewrite nslip_sizes in H. apply C. eapply nth_error_In; exact H. Qed.

(** ** planes *)
Lemma plane_of_system : forall L g i s, lattice_ok L -> get_sys L g i = Some s ->
  exists k n, plane_index L g i = Some k /\ (k < nplanes L)%nat /\ nth_error (la_normals L) k = Some n /\
  (n = s_plane s \/ Rabs (Rabs (ndot n (s_plane s)) - 1) <= 1e-8 + 1e-5).
Proof.
  intros L g i s (_ & _ & _ & _ & E & _) H. destruct (E g i s H) as (k & n & A & B & C). exists k, n. repeat split; auto.
  - apply nth_error_Some; congruence.
  - destruct C as [C|C]; [left; exact C|right]. apply close_iff in C. rewrite dot3_ndot, Rabs_R1 in C. lra.
Qed.
Lemma planes_distinct : forall L i j a b, lattice_ok L -> (i < j)%nat -> nth_error (la_normals L) i = Some a -> nth_error (la_normals L) j = Some b ->
  1e-8 + 1e-5 < Rabs (Rabs (ndot a b) - 1).
Proof.
  intros L i j a b (_ & _ & _ & _ & _ & _ & H) X Ha Hb. specialize (H i j a b X Ha Hb).
  destruct (Rle_lt_dec (Rabs (Rabs (ndot a b) - 1)) (1e-8 + 1e-5)) as [Y|]; auto. exfalso.
  assert (T : close (Rabs (dot3 a b)) 1 = true) by (apply close_iff; rewrite dot3_ndot, Rabs_R1; lra). congruence.
Qed.
Lemma plane_systems_iff : forall L k g i, lattice_ok L -> (In (g, i) (plane_systems L k) <-> plane_index L g i = Some k).
Proof.
  intros L k g i K. unfold plane_systems. rewrite in_flat_map. split.
  - intros (g' & Hg & H). apply in_flat_map in H as (i' & Hi & H). destruct (plane_index L g' i') as [j|] eqn:X; [|destruct H].
    destruct (Nat.eqb_spec j k); [|destruct H]. destruct H as [H|[]]. injection H as -> ->. congruence.
  - intros H. destruct K as (_ & _ & _ & _ & _ & F & _). destruct (F g i k H) as (_ & S). apply get_sys_iff in S as (n & N & Hi).
    exists g. split.
    + apply in_seq. split; [lia|]. unfold nslip in N. cbn. apply nth_error_Some. intros X; rewrite X in N; discriminate.
    + apply in_flat_map. exists i. rewrite N. split; [apply in_seq; lia|]. rewrite H, Nat.eqb_refl. left; reflexivity.
Qed.

(** ** the cache *)
Lemma rotM_meaning : forall Q s, unitq Q ->
  meq3 (t2 (usym (rotM Q s))) (symm2 (fun i j => apply_v Q (s_dir s) i * apply_v Q (s_plane s) j)).
Proof.
  intros Q s U i j Hi Hj. unfold rotM. rewrite apply_sym_full by assumption.
  unfold symm2. rewrite !apply_v_matrix by assumption. unfold turn2, mv3.
  assert (X : forall m n, (m < 3)%nat -> (n < 3)%nat -> t2 (usym (mk_symmetric (outer3 (s_dir s) (s_plane s)))) m n = (s_dir s m * s_plane s n + s_dir s n * s_plane s m) / 2).
  { intros m n Hm Hn. rewrite usym_mk_symmetric by assumption. unfold symm2. rewrite !outer_entry by assumption. reflexivity. }
  cbn [rsum]. rewrite !X by lia. field.
Qed.
Lemma rotN_meaning : forall Q s, unitq Q ->
  meq3 (t2 (uskew (rotN Q s))) (skewp2 (fun i j => apply_v Q (s_dir s) i * apply_v Q (s_plane s) j)).
Proof.
  intros Q s U i j Hi Hj. unfold rotN. rewrite apply_skew_full by assumption.
  unfold skewp2. rewrite !apply_v_matrix by assumption. unfold turn2, mv3.
  assert (X : forall m n, (m < 3)%nat -> (n < 3)%nat -> t2 (uskew (mk_skew (outer3 (s_dir s) (s_plane s)))) m n = (s_dir s m * s_plane s n - s_dir s n * s_plane s m) / 2).
  { intros m n Hm Hn. rewrite uskew_mk_skew by assumption. unfold skewp2. rewrite !outer_entry by assumption. reflexivity. }
  cbn [rsum]. rewrite !X by lia. field.
Qed.
(** the resolved shear stress on a turned system *)
Lemma shear_meaning : forall Q s stress, unitq Q ->
  sym_contract (rotM Q s) stress = rsum 3 (fun i => rsum 3 (fun j => apply_v Q (s_dir s) i * t2 (usym stress) i j * apply_v Q (s_plane s) j)).
Proof.
  intros Q s st U. rewrite sym_contract_inner. unfold inner2.
  assert (X : forall i j, (i < 3)%nat -> (j < 3)%nat -> t2 (usym (rotM Q s)) i j = symm2 (fun i j => apply_v Q (s_dir s) i * apply_v Q (s_plane s) j) i j).
  { intros; apply rotM_meaning; auto. }
  assert (Y : forall i j, (i < 3)%nat -> (j < 3)%nat -> t2 (usym st) i j = t2 (usym st) j i).
  { intros i j Hi Hj. unfold t2, usym. cases3 i Hi; cases3 j Hj; reflexivity. }
  cbn [rsum]. rewrite !X by lia. unfold symm2. rewrite (Y 1%nat 0%nat), (Y 2%nat 0%nat), (Y 2%nat 1%nat) by lia. field.
Qed.
Lemma shear_objective : forall Q s stress, unitq Q -> sym_contract (rotM Q s) (apply_sym Q stress) = sym_contract (rotM qone s) stress.
Proof.
  intros Q s st U. rewrite !sym_contract_inner.
  assert (E : forall A B, inner2 (t2 (usym A)) (t2 (usym B)) = dot 6 A B).
  { intros A B. rewrite <- sym_contract_inner. unfold sym_contract, dot. reflexivity. }
  rewrite !E. unfold rotM. rewrite apply_sym_inner by exact U. unfold dot. apply rsum_ext. intros i Hi. f_equal.
  symmetry. apply (apply_sym_one _ i Hi).
Qed.
Definition cache_current (hash : quat -> Z) (L : lattice) : Prop :=
  match la_cache L with
  | None => True
  | Some k => exists Q, k_hash k = hash Q /\ k_M k = map (fun G => map (rotM Q) (g_sys G)) (la_groups L) /\
                        k_N k = map (fun G => map (rotN Q) (g_sys G)) (la_groups L)
  end.
Lemma get2_map : forall (f : sys -> vec) L g i, get2 (map (fun G => map f (g_sys G)) (la_groups L)) g i = option_map f (get_sys L g i).
Proof.
  intros. unfold get2, get_sys. rewrite nth_error_map. destruct (nth_error (la_groups L) g); cbn; [|reflexivity]. now rewrite nth_error_map.
Qed.
Lemma cache_rot_current : forall hash L Q, cache_current hash L -> cache_current hash (cache_rot hash L Q).
Proof.
  intros hash L Q H. unfold cache_rot, cache_current in *. destruct (la_cache L) as [k|] eqn:E.
  - destruct (Z.eqb_spec (k_hash k) (hash Q)); [rewrite E; exact H|]. cbn. exists Q; auto.
  - cbn. exists Q; auto.
Qed.
Lemma query_correct : forall hash L Q g i, (forall a b, hash a = hash b -> a = b) -> cache_current hash L ->
  snd (query_M hash L g i Q) = option_map (rotM Q) (get_sys L g i) /\ snd (query_N hash L g i Q) = option_map (rotN Q) (get_sys L g i).
Proof.
  intros hash L Q g i INJ H. unfold query_M, query_N; cbn [snd]. unfold cache_rot, cache_current in *.
  destruct (la_cache L) as [k|] eqn:E; [destruct (Z.eqb_spec (k_hash k) (hash Q)) as [X|X]|].
  - rewrite E. destruct H as (Q' & A & B & C). assert (Q' = Q) by (apply INJ; congruence). subst Q'. rewrite B, C, !get2_map. auto.
  - cbn. rewrite !get2_map. auto.
  - cbn. rewrite !get2_map. auto.
Qed.
Lemma query_get : forall hash L x g i, get_sys (fst (query hash L x)) g i = get_sys L g i.
Proof.
  intros hash L (((m, g'), i'), Q) g i. unfold query, query_M, query_N. destruct m; cbn [fst]; unfold get_sys; now rewrite (proj1 (cache_rot_same hash L Q)).
Qed.
Lemma queries_correct : forall hash xs L, (forall a b, hash a = hash b -> a = b) -> cache_current hash L ->
  queries hash L xs = map (fun x => let '(m, g, i, Q) := x in option_map (if m : bool then rotM Q else rotN Q) (get_sys L g i)) xs.
Proof.
  intros hash xs. induction xs as [|x xs IH]; intros L INJ H; cbn [queries map]; [reflexivity|].
  f_equal.
  - destruct x as (((m, g), i), Q). destruct (query_correct hash L Q g i INJ H) as (A & B). unfold query. destruct m; assumption.
  - rewrite IH; auto.
    + apply map_ext. intros (((m, g), i), Q). now rewrite query_get.
    + destruct x as (((m, g), i), Q). unfold query, query_M, query_N. destruct m; cbn [fst]; apply cache_rot_current; exact H.
Qed.
(** adding a group does not touch the cache: an orientation already cached has no entry for it *)
Lemma stale_cache : forall hash L Q G, cache_current hash L -> g_sys G <> [] ->
  snd (query_M hash (add_group (cache_rot hash L Q) G) (ngroup L) 0 Q) = None /\
  exists s, get_sys (add_group (cache_rot hash L Q) G) (ngroup L) 0 = Some s.
Proof.
  intros hash L Q G H NE. destruct (cache_rot_same hash L Q) as (A & _ & _ & _).
  assert (K : exists k, la_cache (cache_rot hash L Q) = Some k /\ k_hash k = hash Q /\ exists Q', k_M k = map (fun G => map (rotM Q') (g_sys G)) (la_groups L)).
  { unfold cache_rot. unfold cache_current in H. destruct (la_cache L) as [k|] eqn:E.
    - destruct (Z.eqb_spec (k_hash k) (hash Q)) as [X|X].
      + exists k. rewrite E. destruct H as (Q' & _ & B & _). repeat split; auto. exists Q'; auto.
      + eexists; cbn; repeat split. exists Q; auto.
    - eexists; cbn; repeat split. exists Q; auto. }
  destruct K as (k & K1 & K2 & Q' & K3). set (L1 := cache_rot hash L Q) in *. clearbody L1. split.
  - unfold query_M; cbn [snd]. unfold add_group. destruct (g_sys G) as [|s0 ss] eqn:EG; [congruence|].
    unfold cache_rot. cbn [la_cache]. rewrite K1, K2, Z.eqb_refl. cbn [la_cache]. rewrite ?K1, K3. unfold get2.
    assert (NN : nth_error (map (fun G => map (rotM Q') (g_sys G)) (la_groups L)) (ngroup L) = None).
    { apply nth_error_None. rewrite map_length. unfold ngroup; lia. }
    rewrite NN. reflexivity.
  - unfold add_group. destruct (g_sys G) as [|s0 ss] eqn:EG; [congruence|]. exists s0. unfold get_sys; cbn [la_groups]. rewrite A.
    unfold ngroup. rewrite nth_error_app2, Nat.sub_diag by lia. cbn. rewrite EG. reflexivity.
Qed.
(** two orientations with the same hash: the second query answers for the first one *)
Lemma collision : forall hash L Q Q' g i, la_cache L = None -> hash Q = hash Q' ->
  snd (query_M hash (fst (query_M hash L g i Q)) g i Q') = option_map (rotM Q) (get_sys L g i).
Proof.
  intros hash L Q Q' g i N E. unfold query_M; cbn [fst snd]. unfold cache_rot. rewrite N. cbn [la_cache k_hash]. rewrite E, Z.eqb_refl. cbn [la_cache k_M]. apply get2_map.
Qed.
(** ** the statements for lattices built by the user *)
Lemma built_flat : forall hash m2d m2p ops L, built hash m2d m2p ops L ->
  (forall g i n, nslip L g = Some n -> (i < n)%nat -> exists f, lflat L g i = Some f /\ (f < ntotal L)%nat) /\
  (forall g i n h j m f, nslip L g = Some n -> (i < n)%nat -> nslip L h = Some m -> (j < m)%nat -> lflat L g i = Some f -> lflat L h j = Some f -> g = h /\ i = j) /\
  (forall f, (f < ntotal L)%nat -> exists g n i, nslip L g = Some n /\ (i < n)%nat /\ lflat L g i = Some f).
Proof.
  intros hash m2d m2p ops L B. apply built_ok in B. split; [|split].
  - intros g i n. apply flat_range; exact B.
  - intros g i n h j m f. apply flat_injective; exact B.
  - intros f. apply flat_surjective; exact B.
Qed.
Lemma built_planes : forall hash m2d m2p ops L, built hash m2d m2p ops L ->
  (forall g i s, get_sys L g i = Some s -> exists k n, plane_index L g i = Some k /\ (k < nplanes L)%nat /\ nth_error (la_normals L) k = Some n /\
     (n = s_plane s \/ Rabs (Rabs (ndot n (s_plane s)) - 1) <= 1e-8 + 1e-5)) /\
  (forall i j a b, (i < j)%nat -> nth_error (la_normals L) i = Some a -> nth_error (la_normals L) j = Some b -> 1e-8 + 1e-5 < Rabs (Rabs (ndot a b) - 1)) /\
  (forall k g i, In (g, i) (plane_systems L k) <-> plane_index L g i = Some k).
Proof.
  intros hash m2d m2p ops L B. apply built_ok in B. split; [|split].
  - intros g i s. apply plane_of_system; exact B.
  - intros i j a b. apply planes_distinct; exact B.
  - intros k g i. apply plane_systems_iff; exact B.
Qed.
Lemma built_groups : forall hash m2d m2p ops L g n, built hash m2d m2p ops L -> nslip L g = Some n -> (0 < n)%nat.
Proof. intros hash m2d m2p ops L g n B. apply groups_nonempty. eapply built_ok; exact B. Qed.
Lemma fresh_queries : forall hash xs L, (forall a b, hash a = hash b -> a = b) -> la_cache L = None ->
  queries hash L xs = map (fun x => let '(m, g, i, Q) := x in option_map (if m : bool then rotM Q else rotN Q) (get_sys L g i)) xs.
Proof. intros hash xs L INJ N. apply queries_correct; auto. unfold cache_current. rewrite N. exact I. Qed.
(** empty systems are dropped without a word *)
Lemma empty_dropped : forall m2d m2p ops L d p d' p', m2d d = Some d' -> m2p p = Some p' -> slip_systems ops d' p' = [] -> add_slip_system m2d m2p ops L d p = Some L.
Proof. intros m2d m2p ops L d p d' p' E1 E2 E3. unfold add_slip_system. rewrite E1, E2, E3. reflexivity. Qed.
(** what a successful call adds *)
Lemma add_slip_adds : forall m2d m2p ops L d p d' p' L', m2d d = Some d' -> m2p p = Some p' -> add_slip_system m2d m2p ops L d p = Some L' -> slip_systems ops d' p' <> [] ->
  ngroup L' = S (ngroup L) /\ nslip L' (ngroup L) = Some (length (slip_systems ops d' p')) /\
  (forall i, get_sys L' (ngroup L) i = nth_error (slip_systems ops d' p') i) /\ (forall g i, (g < ngroup L)%nat -> get_sys L' g i = get_sys L g i).
Proof.
  intros m2d m2p ops L d p d' p' L' E1 E2 E3 NE. unfold add_slip_system in E3. rewrite E1, E2 in E3. injection E3 as <-.
  unfold add_group; cbn [g_sys]. destruct (slip_systems ops d' p') as [|s0 ss] eqn:ES; [congruence|].
  assert (N : forall T, nth_error (la_groups L ++ [T]) (ngroup L) = Some T) by (intros T; unfold ngroup; rewrite nth_error_app2, Nat.sub_diag by lia; reflexivity).
  unfold ngroup at 1, nslip, get_sys; cbn [la_groups]. repeat split.
  - rewrite app_length; cbn. unfold ngroup; lia.
  - rewrite N. reflexivity.
  - intros i. rewrite N. reflexivity.
  - intros g i Hg. rewrite nth_error_app1 by exact Hg. reflexivity.
Qed.

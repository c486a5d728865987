(** Slip and twin systems, their numbering, planes and cached rotations *)
From Coq Require Import String ZArith Lra Lia Psatz Bool.
From Verif Require Import Base NemlMathModel NemlMathSpec NemlMathProofs RotModel RotSpec RotProofs RotConv RotTensor TensorModel TensorSpec TensorProofs.
From Verif Require Import CrystModel CrystSpec CrystProofs CrystMiller.

Lemma close_iff : forall a b, close a b = true <-> Rabs (a - b) <= 1e-8 + 1e-5 * Rabs b.
Proof. intros. unfold close, isclose, atol, rtol. destruct (Rle_dec _ _); split; intros; auto; try discriminate; contradiction. Qed.
Lemma close_refl : forall a, close a a = true.
Proof. intros. apply close_iff. rewrite Rminus_diag_eq, Rabs_R0 by reflexivity. pose proof (Rabs_pos a); lra. Qed.
Lemma vclose_iff : forall a b, vclose a b = true <-> near a b.
Proof.
  intros. unfold vclose, near. rewrite !andb_true_iff, !close_iff. split.
  - intros (A & B & C) i Hi. cases3 i Hi; assumption.
  - intros H; repeat split; apply H; lia.
Qed.
Lemma vclose_refl : forall a, vclose a a = true.
Proof. intros. unfold vclose. rewrite !close_refl. reflexivity. Qed.
Lemma near_refl : forall a, near a a.
Proof. intros; apply vclose_iff, vclose_refl. Qed.

(** ** fold that appends only what is new *)
Definition add_new {A} (same : A -> A -> bool) (us : list A) (c : A) : list A :=
  if existsb (fun u => same u c) us then us else us ++ [c].
Lemma add_new_fold : forall {A} (same : A -> A -> bool) cs us,
  (forall i j a b, (i < j)%nat -> nth_error us i = Some a -> nth_error us j = Some b -> same a b = false) ->
  let r := fold_left (add_new same) cs us in
  (forall u, In u r -> In u us \/ In u cs) /\ (forall u, In u us -> In u r) /\
  (forall c, In c cs -> In c r \/ exists u, In u r /\ same u c = true) /\
  (forall i j a b, (i < j)%nat -> nth_error r i = Some a -> nth_error r j = Some b -> same a b = false).
Proof.
  intros A same cs. induction cs as [|c cs IH]; intros us D r.
  { cbn in r; subst r. repeat split; auto; intros c []. }
  unfold r; cbn [fold_left]. clear r.
  assert (D' : forall i j a b, (i < j)%nat -> nth_error (add_new same us c) i = Some a -> nth_error (add_new same us c) j = Some b -> same a b = false).
  { unfold add_new. destruct (existsb _ us) eqn:X; [exact D|]. intros i j a b L Ha Hb.
    assert (J : (j < length (us ++ [c]))%nat) by (apply nth_error_Some; congruence). rewrite app_length in J; cbn in J.
    rewrite nth_error_app1 in Ha by lia.
    destruct (Nat.eq_dec j (length us)) as [->|N].
    - rewrite nth_error_app2, Nat.sub_diag in Hb by lia. cbn in Hb. injection Hb as <-.
      destruct (same a c) eqn:Y; auto. assert (T : existsb (fun u => same u c) us = true).
      { apply existsb_exists. exists a. split; [eapply nth_error_In; eauto | exact Y]. } congruence.
    - rewrite nth_error_app1 in Hb by lia. apply (D i j a b L Ha Hb). }
  destruct (IH _ D') as (S & K & C & E). repeat split; auto.
  - intros u Hu. destruct (S u Hu) as [G|G]; [|right; right; exact G].
    unfold add_new in G. destruct (existsb _ us); [left; exact G|]. apply in_app_or in G as [G|[->|[]]]; [left; exact G | right; left; reflexivity].
  - intros u Hu. apply K. unfold add_new. destruct (existsb _ us); auto. apply in_or_app; auto.
  - intros d [->|Hd]; [|apply C; exact Hd].
    assert (G : In d (add_new same us d) \/ exists u, In u (add_new same us d) /\ same u d = true).
    { unfold add_new. destruct (existsb _ us) eqn:X.
      - right. apply existsb_exists in X. exact X.
      - left. apply in_or_app; right; left; reflexivity. }
    destruct G as [G|(u & G & Y)]; [left | right; exists u; split; auto]; apply K; exact G.
Qed.
Lemma fold_left_map : forall {A B C} (f : A -> B) (g : C -> B -> C) l a, fold_left (fun x y => g x (f y)) l a = fold_left g (map f l) a.
Proof. intros A B C f g l; induction l; intros; cbn; auto. Qed.

(** ** equivalent vectors *)
Lemma equivalent_ok : forall ops v, let us := equivalent_vectors ops v in
  (forall u, In u us -> exists R, In R ops /\ u = apply_v R v) /\
  (forall R, In R ops -> exists u, In u us /\ near u (apply_v R v)) /\
  (forall i j a b, (i < j)%nat -> nth_error us i = Some a -> nth_error us j = Some b -> ~ near a b).
Proof.
  intros ops v us. unfold us, equivalent_vectors.
  change (fun us R => let c := apply_v R v in if existsb (fun u => vclose u c) us then us else us ++ [c])
    with (fun us R => add_new vclose us ((fun R => apply_v R v) R)).
  rewrite (fold_left_map (fun R => apply_v R v) (add_new vclose)).
  destruct (add_new_fold vclose (map (fun R => apply_v R v) ops) []) as (S & _ & C & D).
  { intros i j a b _ H; destruct i; discriminate. }
  repeat split.
  - intros u Hu. destruct (S u Hu) as [[]|H]. apply in_map_iff in H as (R & <- & H). exists R; auto.
  - intros R HR. destruct (C (apply_v R v)) as [G|(u & G & Y)].
    + apply in_map_iff; exists R; auto.
    + exists (apply_v R v); split; [exact G | apply near_refl].
    + exists u; split; [exact G | apply vclose_iff; exact Y].
  - intros i j a b L Ha Hb N. apply vclose_iff in N. pose proof (D i j a b L Ha Hb). congruence.
Qed.
Lemma one_direction_ok : forall both, let ss := one_direction both in
  (forall u, In u ss -> In u both) /\
  (forall a, In a both -> In a ss \/ exists b, In b ss /\ near a (vneg b)) /\
  (forall i j a b, (i < j)%nat -> nth_error ss i = Some a -> nth_error ss j = Some b -> ~ near b (vneg a)).
Proof.
  intros both ss. unfold ss, one_direction.
  change (fun ss a => if existsb (fun b => vclose a (vneg b)) ss then ss else ss ++ [a]) with (add_new (fun b a => vclose a (vneg b))).
  destruct (add_new_fold (fun b a => vclose a (vneg b)) both []) as (S & _ & C & D).
  { intros i j a b _ H; destruct i; discriminate. }
  repeat split.
  - intros u Hu. destruct (S u Hu) as [[]|H]; exact H.
  - intros a Ha. destruct (C a Ha) as [G|(b & G & Y)]; [left; exact G | right; exists b; split; [exact G | apply vclose_iff; exact Y]].
  - intros i j a b L Ha Hb N. apply vclose_iff in N. pose proof (D i j a b L Ha Hb) as X. cbv beta in X. congruence.
Qed.
Lemma bidirectional_ok : forall ops v, let ss := equivalent_vectors_bidirectional ops v in
  (forall u, In u ss -> exists R, In R ops /\ u = apply_v R v) /\
  (forall R, In R ops -> exists u s, In s ss /\ near u (apply_v R v) /\ (u = s \/ near u (vneg s))) /\
  (forall i j a b, (i < j)%nat -> nth_error ss i = Some a -> nth_error ss j = Some b -> ~ near b (vneg a)).
Proof.
  intros ops v ss. unfold ss, equivalent_vectors_bidirectional.
  destruct (equivalent_ok ops v) as (A & B & _). destruct (one_direction_ok (equivalent_vectors ops v)) as (C & D & E).
  repeat split; [intros u Hu; apply A, C, Hu | | exact E].
  intros R HR. destruct (B R HR) as (u & Hu & N). destruct (D u Hu) as [G|(s & G & M)]; [exists u, u | exists u, s]; auto.
Qed.
(** when the images are either equal or further apart than the tolerance, each is listed once *)
Lemma equivalent_exact : forall ops v, (forall R S, In R ops -> In S ops -> near (apply_v R v) (apply_v S v) -> veq 3 (apply_v R v) (apply_v S v)) ->
  let us := equivalent_vectors ops v in
  (forall R, In R ops -> exists u, In u us /\ veq 3 u (apply_v R v)) /\
  (forall i j a b, nth_error us i = Some a -> nth_error us j = Some b -> veq 3 a b -> i = j).
Proof.
  intros ops v H us. destruct (equivalent_ok ops v) as (A & B & C). split.
  - intros R HR. destruct (B R HR) as (u & Hu & N). exists u; split; [exact Hu|]. destruct (A u Hu) as (S & HS & ->). apply H; auto.
  - assert (K : forall i j a b, (i < j)%nat -> nth_error us i = Some a -> nth_error us j = Some b -> ~ veq 3 a b).
    { intros i j a b L Ha Hb E. apply (C i j a b L Ha Hb). intros k Hk. rewrite (E k Hk). apply near_refl. exact Hk. }
    intros i j a b Ha Hb E. destruct (Nat.lt_trichotomy i j) as [L|[->|L]]; auto; exfalso.
    + eapply K; eauto.
    + apply (K j i b a L Hb Ha). intros k Hk; symmetry; apply E; exact Hk.
Qed.
Lemma equivalent_length : forall ops v u, (forall R, In R ops -> unitq R) -> In u (equivalent_vectors ops v) -> ndot u u = ndot v v.
Proof. intros ops v u U H. destruct (equivalent_ok ops v) as (A & _). destruct (A u H) as (R & HR & ->). apply apply_v_dot; auto. Qed.

(** ** slip systems *)
Lemma slip_pair_iff : forall b n s, In s (slip_pair b n) <->
  s_burgers s = b /\ normalize3 b = Some (s_dir s) /\ normalize3 n = Some (s_plane s) /\ Rabs (ndot (s_dir s) (s_plane s)) <= 1e-8 /\ s_reor s = O4 1 0 0 0.
Proof.
  intros b n s. unfold slip_pair.
  destruct (normalize3 b) as [nd|]; [|split; [intros []|intros (_ & ? & _); discriminate]].
  destruct (normalize3 n) as [nn|]; [|split; [intros []|intros (_ & _ & ? & _); discriminate]].
  assert (K : close (dot3 nd nn) 0 = true <-> Rabs (ndot nd nn) <= 1e-8).
  { rewrite close_iff, dot3_ndot, Rminus_0_r, Rabs_R0. rewrite Rmult_0_r, Rplus_0_r. tauto. }
  destruct (close (dot3 nd nn) 0) eqn:X; split.
  - intros [<-|[]]. cbn. repeat split; auto. apply K; reflexivity.
  - intros (A & B & C & D & E). left. destruct s; cbn in *. congruence.
  - intros [].
  - intros (A & B & C & D & E). injection B as B; injection C as C. rewrite <- B, <- C in D. apply K in D. discriminate.
Qed.
Lemma slip_systems_iff : forall ops d p s, In s (slip_systems ops d p) <->
  exists b n, In b (equivalent_vectors_bidirectional ops d) /\ In n (equivalent_vectors_bidirectional ops p) /\
  s_burgers s = b /\ normalize3 b = Some (s_dir s) /\ normalize3 n = Some (s_plane s) /\ Rabs (ndot (s_dir s) (s_plane s)) <= 1e-8 /\ s_reor s = O4 1 0 0 0.
Proof.
  intros. unfold slip_systems. rewrite in_flat_map. split.
  - intros (b & Hb & H). apply in_flat_map in H as (n & Hn & H). apply slip_pair_iff in H. exists b, n; auto.
  - intros (b & n & Hb & Hn & H). exists b; split; auto. apply in_flat_map. exists n; split; auto. apply slip_pair_iff; auto.
Qed.
Lemma slip_systems_sound : forall ops d p s, In s (slip_systems ops d p) ->
  (exists R, In R ops /\ s_burgers s = apply_v R d) /\
  unit_vec (s_dir s) /\ unit_vec (s_plane s) /\ Rabs (ndot (s_dir s) (s_plane s)) <= 1e-8 /\
  (exists c, 0 < c /\ forall i, s_burgers s i = c * s_dir s i) /\
  (exists R c, In R ops /\ 0 < c /\ forall i, apply_v R p i = c * s_plane s i).
Proof.
  intros ops d p s H. apply slip_systems_iff in H as (b & n & Hb & Hn & E1 & E2 & E3 & E4 & _).
  destruct (bidirectional_ok ops d) as (A & _). destruct (bidirectional_ok ops p) as (B & _).
  destruct (A b Hb) as (R & HR & EB). destruct (B n Hn) as (S & HS & EN).
  destruct (normalize3_sound _ _ E2) as (U1 & c & C & X). destruct (normalize3_sound _ _ E3) as (U2 & c' & C' & X').
  repeat split; auto.
  - exists R; split; auto. congruence.
  - exists c; split; auto. intros i. rewrite E1. apply X.
  - exists S, c'. repeat split; auto. intros i. rewrite <- EN. apply X'.
Qed.

(** ** numbering.  [lattice_ok]: what every lattice built by the two add functions satisfies *)
Definition sizes (L : lattice) : list nat := map (fun G => length (g_sys G)) (la_groups L).
Fixpoint total (l : list nat) : nat := match l with [] => O | n :: r => (n + total r)%nat end.
Definition planes_ok (L : lattice) : Prop :=
  forall g i s, get_sys L g i = Some s -> exists k n, plane_index L g i = Some k /\ nth_error (la_normals L) k = Some n /\ (n = s_plane s \/ close (Rabs (dot3 n (s_plane s))) 1 = true).
Definition nmap_ok (L : lattice) : Prop :=
  forall g i k, plane_index L g i = Some k -> (k < nplanes L)%nat /\ exists s, get_sys L g i = Some s.
Definition lattice_ok (L : lattice) : Prop :=
  length (la_offsets L) = S (ngroup L) /\
  (forall g o, nth_error (la_offsets L) g = Some o -> o = total (firstn g (sizes L))) /\
  (forall n, In n (sizes L) -> (0 < n)%nat) /\
  length (la_nmap L) = ngroup L /\ planes_ok L /\ nmap_ok L /\
  (forall i j a b, (i < j)%nat -> nth_error (la_normals L) i = Some a -> nth_error (la_normals L) j = Some b -> close (Rabs (dot3 a b)) 1 = false).
Lemma total_app : forall a b, total (a ++ b) = (total a + total b)%nat.
Proof. induction a; intros; cbn; auto. rewrite IHa; lia. Qed.
Lemma ntotal_total : forall L, ntotal L = total (sizes L).
Proof.
  intros L. unfold ntotal, sizes. rewrite <- (Nat.add_0_r (total _)). rewrite Nat.add_comm. generalize O at 1 2.
  induction (la_groups L) as [|G r IH]; intros n; cbn; [lia|]. rewrite IH. lia.
Qed.
Lemma lattice0_ok : lattice_ok lattice0.
Proof.
  unfold lattice_ok, lattice0, sizes, planes_ok, nmap_ok, plane_index, get_sys, nplanes; cbn. repeat split; auto.
  - intros [|[|]] o; cbn; intros E; try discriminate. injection E as <-; reflexivity.
  - intros n [].
  - intros [|] i s E; discriminate.
  - destruct g; discriminate.
  - destruct g; discriminate.
  - intros [|] j a b _ E; discriminate.
Qed.
Lemma nth_last : forall {A} (l : list A) d, l <> [] -> nth_error l (pred (length l)) = Some (last l d).
Proof.
  intros A l d H. induction l as [|a l IH]; [congruence|]. destruct l; [reflexivity|].
  change (last (a :: a0 :: l) d) with (last (a0 :: l) d). rewrite <- IH by discriminate. reflexivity.
Qed.
Lemma find_plane_some : forall ns p j k, find_plane ns p j = Some k ->
  (j <= k)%nat /\ exists n, nth_error ns (k - j) = Some n /\ close (Rabs (dot3 n p)) 1 = true.
Proof.
  induction ns as [|n r IH]; intros p j k H; cbn in H; [discriminate|].
  destruct (close (Rabs (dot3 n p)) 1) eqn:X.
  - injection H as <-. split; [lia|]. exists n. rewrite Nat.sub_diag; auto.
  - destruct (IH _ _ _ H) as (A & m & B & C). split; [lia|]. exists m. replace (k - j)%nat with (S (k - S j)) by lia. auto.
Qed.
Lemma find_plane_none : forall ns p j, find_plane ns p j = None -> forall n, In n ns -> close (Rabs (dot3 n p)) 1 = false.
Proof.
  induction ns as [|n r IH]; intros p j H m Hm; [destruct Hm|]. cbn in H.
  destruct (close (Rabs (dot3 n p)) 1) eqn:X; [discriminate|]. destruct Hm as [<-|Hm]; auto. eapply IH; eauto.
Qed.
Definition far_planes (ns : list vec) : Prop :=
  forall i j a b, (i < j)%nat -> nth_error ns i = Some a -> nth_error ns j = Some b -> close (Rabs (dot3 a b)) 1 = false.
Lemma update_normals_ok : forall ps ns acc, far_planes ns ->
  let r := update_normals ns ps acc in
  far_planes (fst r) /\ (exists e, fst r = ns ++ e) /\
  (exists ks, snd r = acc ++ ks /\ length ks = length ps /\
   forall i p, nth_error ps i = Some p -> exists k n, nth_error ks i = Some k /\ nth_error (fst r) k = Some n /\ (n = p \/ close (Rabs (dot3 n p)) 1 = true)).
Proof.
  induction ps as [|p ps IH]; intros ns acc F r.
  { cbn in r; subst r; cbn. split; [exact F|]. split; [exists []; now rewrite app_nil_r|]. exists []. rewrite app_nil_r; repeat split; auto. intros [|] q; discriminate. }
  unfold r; cbn [update_normals]; clear r. destruct (find_plane ns p 0) as [j|] eqn:X.
  - destruct (IH ns (acc ++ [j]) F) as (A & (e & B) & ks & C & D & E). split; [exact A|]. split; [exists e; exact B|].
    exists (j :: ks). split; [rewrite C, <- app_assoc; reflexivity|]. split; [cbn; congruence|].
    intros [|i] q Hq; [|apply E; exact Hq]. cbn in Hq; injection Hq as <-.
    destruct (find_plane_some _ _ _ _ X) as (_ & n & N & Y). rewrite Nat.sub_0_r in N.
    exists j, n. split; [reflexivity|]. split; [|right; exact Y]. rewrite B, nth_error_app1; auto. apply nth_error_Some; congruence.
  - assert (F' : far_planes (ns ++ [p])).
    { intros i j a b L Ha Hb. assert (J : (j < length (ns ++ [p]))%nat) by (apply nth_error_Some; congruence).
      rewrite app_length in J; cbn in J. rewrite nth_error_app1 in Ha by lia. destruct (Nat.eq_dec j (length ns)) as [->|N].
      - rewrite nth_error_app2, Nat.sub_diag in Hb by lia. injection Hb as <-. eapply find_plane_none; eauto. eapply nth_error_In; eauto.
      - rewrite nth_error_app1 in Hb by lia. apply (F i j a b L Ha Hb). }
    destruct (IH (ns ++ [p]) (acc ++ [length ns]) F') as (A & (e & B) & ks & C & D & E). split; [exact A|].
    split; [exists (p :: e); rewrite B, <- app_assoc; reflexivity|].
    exists (length ns :: ks). split; [rewrite C, <- app_assoc; reflexivity|]. split; [cbn; congruence|].
    intros [|i] q Hq; [|apply E; exact Hq]. cbn in Hq; injection Hq as <-.
    exists (length ns), p. split; [reflexivity|]. split; [|left; reflexivity].
    rewrite B, <- app_assoc, nth_error_app2, Nat.sub_diag by lia. reflexivity.
Qed.
Lemma add_group_ok : forall L G, lattice_ok L -> lattice_ok (add_group L G).
Proof.
  intros L G (A & B & C & D & E & F & H). unfold add_group. destruct (g_sys G) as [|s0 ss] eqn:EG; [exact (conj A (conj B (conj C (conj D (conj E (conj F H))))))|].
  set (P := map s_plane (s0 :: ss)). assert (LP : length P = length (g_sys G)) by (unfold P; rewrite map_length, EG; reflexivity).
  destruct (update_normals_ok P (la_normals L) [] H) as (U1 & (e & U2) & ks & U3 & U4 & U5). cbn [app] in U3.
  set (un := update_normals (la_normals L) P []) in *.
  assert (LS : length (sizes L) = ngroup L) by (unfold sizes; rewrite map_length; reflexivity).
  assert (GS : forall g, (g < ngroup L)%nat -> forall T, nth_error (la_groups L ++ [T]) g = nth_error (la_groups L) g).
  { intros g Hg T. apply nth_error_app1. exact Hg. }
  assert (GN : forall T, nth_error (la_groups L ++ [T]) (ngroup L) = Some T).
  { intros T. unfold ngroup. rewrite nth_error_app2, Nat.sub_diag by lia. reflexivity. }
  assert (NS : forall g, (g < ngroup L)%nat -> nth_error (la_nmap L ++ [snd un]) g = nth_error (la_nmap L) g).
  { intros g Hg. apply nth_error_app1. lia. }
  assert (NN : nth_error (la_nmap L ++ [snd un]) (ngroup L) = Some (snd un)).
  { rewrite <- D, nth_error_app2, Nat.sub_diag by lia. reflexivity. }
  assert (OLD : forall k n, nth_error (la_normals L) k = Some n -> nth_error (fst un) k = Some n).
  { intros k n Hk. rewrite U2, nth_error_app1; auto. apply nth_error_Some; congruence. }
  unfold lattice_ok, ngroup, sizes, planes_ok, nmap_ok, plane_index, get_sys, nplanes; cbn [la_groups la_offsets la_normals la_nmap].
  split; [rewrite !app_length; cbn; unfold ngroup in *; lia|].
  split.
  { intros g o Ho. assert (Lg : (g < length (la_offsets L ++ [(last (la_offsets L) 0 + length (s0 :: ss))%nat]))%nat) by (apply nth_error_Some; congruence).
    rewrite app_length in Lg; cbn [length] in Lg. rewrite map_app. fold (sizes L).
    destruct (Nat.eq_dec g (length (la_offsets L))) as [->|N].
    - rewrite nth_error_app2, Nat.sub_diag in Ho by lia. cbn [nth_error] in Ho. injection Ho as <-.
      rewrite A, firstn_all2 by (rewrite app_length, LS; cbn; lia). rewrite total_app. cbn [map total]. rewrite EG, Nat.add_0_r. f_equal.
      assert (NE : la_offsets L <> []) by (intros X; rewrite X in A; discriminate).
      pose proof (nth_last (la_offsets L) O NE) as NL. rewrite A in NL. cbn [pred] in NL. apply B in NL. rewrite NL, firstn_all2; auto. lia.
    - rewrite nth_error_app1 in Ho by lia. rewrite firstn_app. replace (g - length (sizes L))%nat with O by lia. cbn [firstn]. rewrite app_nil_r. apply B; exact Ho. }
  split.
  { intros n Hn. rewrite map_app in Hn. apply in_app_or in Hn as [Hn|[<-|[]]]; [apply C; exact Hn|]. rewrite EG; cbn; lia. }
  split; [rewrite !app_length; cbn; unfold ngroup in *; lia|].
  split.
  { intros g i s Hs.
    assert (Lg : (g < length (la_groups L ++ [G]))%nat) by (apply nth_error_Some; intros X; rewrite X in Hs; discriminate).
    rewrite app_length in Lg; cbn in Lg. fold (ngroup L) in Lg. destruct (Nat.eq_dec g (ngroup L)) as [->|N].
    - rewrite GN in Hs. rewrite NN, U3. rewrite EG in Hs.
      destruct (U5 i (s_plane s)) as (k & n & K1 & K2 & K3). { unfold P. rewrite nth_error_map, Hs. reflexivity. }
      exists k, n; auto.
    - rewrite GS in Hs by lia. rewrite NS by lia. destruct (E g i s Hs) as (k & n & K1 & K2 & K3). exists k, n; auto. }
  split.
  { intros g i k Hk.
    assert (Lg : (g < length (la_nmap L ++ [snd un]))%nat) by (apply nth_error_Some; intros X; rewrite X in Hk; discriminate).
    rewrite app_length in Lg; cbn in Lg. rewrite D in Lg. destruct (Nat.eq_dec g (ngroup L)) as [->|N].
    - rewrite NN, U3 in Hk. rewrite GN, EG.
      assert (I : (i < length P)%nat) by (rewrite <- U4; apply nth_error_Some; congruence).
      destruct (nth_error P i) as [p|] eqn:EP; [|apply nth_error_None in EP; lia].
      destruct (U5 i p EP) as (k' & n & K1 & K2 & K3). rewrite Hk in K1; injection K1 as <-.
      split; [apply nth_error_Some; congruence|]. unfold P in EP. rewrite nth_error_map in EP. destruct (nth_error (s0 :: ss) i) as [s|]; [exists s; reflexivity|discriminate].
    - rewrite NS in Hk by lia. rewrite GS by lia. destruct (F g i k Hk) as (K1 & s & K2). split; [|exists s; exact K2].
      unfold nplanes in K1. rewrite U2, app_length. lia. }
  exact U1.
Qed.
(** ** lattices as built by the user *)
Lemma add_slip_ok : forall m2d m2p ops L d p L', add_slip_system m2d m2p ops L d p = Some L' -> lattice_ok L -> lattice_ok L'.
Proof.
  intros m2d m2p ops L d p L' E H. unfold add_slip_system in E. destruct (m2d d); [|discriminate]. destruct (m2p p); [|discriminate].
  injection E as <-. apply add_group_ok; exact H.
Qed.
Lemma add_twin_ok : forall m2d m2p ops L e1 K1 e2 K2 L', add_twin_system m2d m2p ops L e1 K1 e2 K2 = Some L' -> lattice_ok L -> lattice_ok L'.
Proof.
  intros m2d m2p ops L e1 K1 e2 K2 L' E H. unfold add_twin_system in E.
  destruct (m2p K1); [|discriminate]. destruct (m2d e2); [|discriminate]. destruct (m2d e1); [|discriminate]. destruct (m2p K2); [|discriminate].
  injection E as <-. apply add_group_ok; exact H.
Qed.
Lemma cache_rot_same : forall hash L Q, la_groups (cache_rot hash L Q) = la_groups L /\ la_offsets (cache_rot hash L Q) = la_offsets L /\
  la_normals (cache_rot hash L Q) = la_normals L /\ la_nmap (cache_rot hash L Q) = la_nmap L.
Proof. intros. unfold cache_rot. destruct (la_cache L) as [k|]; [destruct (Z.eqb _ _)|]; auto. Qed.
Lemma cache_rot_ok : forall hash L Q, lattice_ok L -> lattice_ok (cache_rot hash L Q).
Proof.
  intros hash L Q. destruct (cache_rot_same hash L Q) as (A & B & C & D).
  unfold lattice_ok, planes_ok, nmap_ok, sizes, plane_index, get_sys, nplanes, ngroup. rewrite A, B, C, D. auto.
Qed.
Lemma built_ok : forall hash m2d m2p ops L, built hash m2d m2p ops L -> lattice_ok L.
Proof.
  intros hash m2d m2p ops L H. induction H.
  - apply lattice0_ok.
  - eapply add_slip_ok; eauto.
  - eapply add_twin_ok; eauto.
  - apply cache_rot_ok; auto.
Qed.

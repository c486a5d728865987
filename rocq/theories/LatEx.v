(** Lattices that lose or reorder their systems. *)
From Coq Require Import String Ascii ZArith List Arith Lia Lra.
From Verif Require Import Base.
From Verif Require Import HistModel TextModel ParseModel TextProofs ParseSpec ParseProofs NemlMathModel RotModel RotSpec RotProofs TensorModel CrystModel CrystSpec CrystProofs CrystLattice CrystTwin.
From Verif Require Import PycModel PycSpec PycProofs LatModel LatSpec LatProofs.
Import ListNotations.
Open Scope list_scope.
Open Scope R_scope.

Lemma id_op : O4 1 0 0 0 = Quat 1 0 0 0.
Proof. transitivity (normalize_ (qsmul 1 (Quat 1 0 0 0))); [unfold O4, mk_orientation; f_equal; unfold qsmul; cbn; f_equal; ring|]. apply normalize_scaled; [unfold unitq; cbn; lra|lra]. Qed.
Lemma id_apply v i : (i < 3)%nat -> apply_v (O4 1 0 0 0) v i = v i.
Proof. intros Hi. rewrite id_op. rewrite apply_v_matrix by (auto; unfold unitq; cbn; lra). unfold mv3. destruct i as [|[|[|i]]]; [| | |lia]; cbn; ring. Qed.
Lemma fold_keeps {A} (f : list vec -> A -> list vec) (H : forall us x u, In u us -> In u (f us x)) l : forall us u, In u us -> In u (fold_left f l us).
Proof. induction l as [|x l IH]; intros us u I; [exact I |]. cbn [fold_left]. apply IH. apply H. exact I. Qed.
Lemma first_equivalent R r v : In (apply_v R v) (equivalent_vectors (R :: r) v).
Proof.
  unfold equivalent_vectors. cbn [fold_left existsb app]. apply fold_keeps; [| left; reflexivity].
  intros us x u I. cbv zeta. destruct (existsb _ us); [exact I | apply in_or_app; left; exact I].
Qed.
Lemma head_equivalent R r v : exists tl, equivalent_vectors (R :: r) v = apply_v R v :: tl.
Proof.
  unfold equivalent_vectors. cbn [fold_left existsb app].
  assert (H : forall l us, exists tl, fold_left (fun us R => let c := apply_v R v in if existsb (fun u => vclose u c) us then us else us ++ [c]) l (apply_v R v :: us) = apply_v R v :: tl); [| apply H].
  induction l as [|x l IH]; intros us; cbn [fold_left]; [eauto |]. cbv zeta. destruct (existsb _ (apply_v R v :: us)); [apply IH | cbn [app]; apply IH].
Qed.
Lemma first_bidirectional R r v : In (apply_v R v) (equivalent_vectors_bidirectional (R :: r) v).
Proof.
  unfold equivalent_vectors_bidirectional. destruct (head_equivalent R r v) as (tl & ->). unfold one_direction. cbn [fold_left existsb app].
  apply fold_keeps; [| left; reflexivity]. intros us x u I. destruct (existsb _ us); [exact I | apply in_or_app; left; exact I].
Qed.
Lemma normalize_known v x : 0 < x -> dot3 v v = x * x -> normalize3 v = Some (fun i => v i / x).
Proof.
  intros P E. assert (N : norm3 v = x) by (unfold norm3; rewrite E; apply sqrt_square; lra).
  unfold normalize3. destruct (Req_EM_T (norm3 v) 0) as [Z|_]; [rewrite N in Z; lra |]. rewrite N. reflexivity.
Qed.
(** the twin of hexagonal crystals on {10-12}, for the axial ratio 3 sqrt(3) / 4 *)
Lemma hcp_twin_found K1 e1 K2 e2 : let t := sqrt 3 in
  e1 0%nat = - 3 / 2 -> e1 1%nat = t / 2 -> e1 2%nat = 3 * t / 4 -> e2 0%nat = 3 / 2 -> e2 1%nat = - t / 2 -> e2 2%nat = 3 * t / 4 ->
  K1 0%nat = 1 -> K1 1%nat = - t / 3 -> K1 2%nat = 8 * t / 9 -> K2 0%nat = - 1 -> K2 1%nat = t / 3 -> K2 2%nat = 8 * t / 9 ->
  exists s sh, twin_candidate K1 e1 K2 e2 = Some (s, sh).
Proof.
  intros t A0 A1 A2 B0 B1 B2 C0 C1 C2 D0 D1 D2. assert (T : t * t = 3) by (apply sqrt_sqrt; lra). assert (Tp : 0 < t) by (apply sqrt_lt_R0; lra). assert (Tn : t <> 0) by lra.
  assert (It : 1 / t = t / 3) by (field_simplify_eq; [lra | lra]).
  unfold twin_candidate.
  rewrite (normalize_known e1 (5 * t / 4)) by (try lra; unfold dot3; rewrite A0, A1, A2; nra).
  rewrite (normalize_known K1 (10 * t / 9)) by (try lra; unfold dot3; rewrite C0, C1, C2; nra).
  rewrite (normalize_known K2 (10 * t / 9)) by (try lra; unfold dot3; rewrite D0, D1, D2; nra).
  rewrite (normalize_known e2 (5 * t / 4)) by (try lra; unfold dot3; rewrite B0, B1, B2; nra).
  set (l := fun i : nat => e1 i / (5 * t / 4)). set (m := fun i : nat => K1 i / (10 * t / 9)). set (n := fun i : nat => K2 i / (10 * t / 9)). set (g := fun i : nat => e2 i / (5 * t / 4)).
  assert (Q : forall x y, x * t = y -> x = y / t) by (intros x y E; apply (Rmult_eq_reg_r t); [rewrite E; field; exact Tn | exact Tn]).
  assert (l0 : l 0%nat = - 2 * t / 5) by (unfold l; rewrite A0; apply (Rmult_eq_reg_r t); [field_simplify_eq; [nra | exact Tn] | exact Tn]).
  assert (l1 : l 1%nat = 2 / 5) by (unfold l; rewrite A1; field; exact Tn).
  assert (l2 : l 2%nat = 3 / 5) by (unfold l; rewrite A2; field; exact Tn).
  assert (g0 : g 0%nat = 2 * t / 5) by (unfold g; rewrite B0; apply (Rmult_eq_reg_r t); [field_simplify_eq; [nra | exact Tn] | exact Tn]).
  assert (g1 : g 1%nat = - 2 / 5) by (unfold g; rewrite B1; field; exact Tn).
  assert (g2 : g 2%nat = 3 / 5) by (unfold g; rewrite B2; field; exact Tn).
  assert (m0 : m 0%nat = 3 * t / 10) by (unfold m; rewrite C0; apply (Rmult_eq_reg_r t); [field_simplify_eq; [nra | exact Tn] | exact Tn]).
  assert (m1 : m 1%nat = - 3 / 10) by (unfold m; rewrite C1; field; exact Tn).
  assert (m2 : m 2%nat = 4 / 5) by (unfold m; rewrite C2; field; exact Tn).
  assert (n0 : n 0%nat = - 3 * t / 10) by (unfold n; rewrite D0; apply (Rmult_eq_reg_r t); [field_simplify_eq; [nra | exact Tn] | exact Tn]).
  assert (n1 : n 1%nat = 3 / 10) by (unfold n; rewrite D1; field; exact Tn).
  assert (n2 : n 2%nat = 4 / 5) by (unfold n; rewrite D2; field; exact Tn).
  cbv zeta. match goal with |- context [normalize3 (fun k => 2 * (K1 k / (10 * t / 9) - e2 k / (5 * t / 4) / ?v))] =>
    change (fun k => 2 * (K1 k / (10 * t / 9) - e2 k / (5 * t / 4) / v)) with (fun k => 2 * (m k - g k / v)) end.
  clearbody l m n g.
  assert (Vgm : dot3 g m = 24 / 25) by (unfold dot3; rewrite g0, g1, g2, m0, m1, m2; nra). rewrite Vgm.
  assert (Cz : close (24 / 25) 0 = false).
  { unfold close, isclose, atol, rtol. destruct (Rle_dec _ _) as [H|_]; [exfalso | reflexivity]. rewrite Rabs_R0, Rabs_right in H by lra. lra. }
  rewrite Cz.
  match goal with |- context [normalize3 ?f] => lazymatch f with cross3 _ _ => fail | _ => rewrite (normalize_known f (7 / 12)) by (try lra; unfold dot3; cbv beta; rewrite g0, g1, g2, m0, m1, m2; nra) end end.
  match goal with |- context [Rabs (dot3 ?u l)] => assert (Vl : dot3 u l = 1) by (unfold dot3; rewrite l0, l1, l2, m0, m1, m2, g0, g1, g2; nra); rewrite Vl end.
  rewrite Rabs_R1, close_refl. cbn [negb].
  rewrite (normalize_known (cross3 l m) 1) by (try lra; unfold dot3, cross3; rewrite l0, l1, l2, m0, m1, m2; nra).
  rewrite (normalize_known (cross3 g _) 1) by (try lra; unfold dot3, cross3; rewrite l0, l1, l2, m0, m1, m2, g0, g1, g2; nra).
  match goal with |- context [Rabs (dot3 ?u n)] => assert (Vn : dot3 u n = 1) by (unfold dot3, cross3; rewrite l0, l1, l2, m0, m1, m2, g0, g1, g2, n0, n1, n2; nra); rewrite Vn end.
  rewrite Rabs_R1, close_refl. cbn [negb].
  destruct (Rlt_dec (dot3 l g) 0) as [_|F]; [| exfalso; apply F; unfold dot3; rewrite l0, l1, l2, g0, g1, g2; nra].
  destruct (Rlt_dec 0.5 (dot3 l n)) as [_|F]; [| exfalso; apply F; unfold dot3; rewrite l0, l1, l2, n0, n1, n2; nra].
  destruct (Rlt_dec 0.5 (24 / 25)) as [_|F]; [| exfalso; lra].
  unfold setAxisAngle, convert_angle. cbn [String.eqb Ascii.eqb]. eexists. eexists. reflexivity.
Qed.
(** a twin in a cubic lattice *)
Lemma cubic_twin_found K1 e1 K2 e2 :
  e1 0%nat = - 4 -> e1 1%nat = 0 -> e1 2%nat = 3 -> e2 0%nat = 4 -> e2 1%nat = 0 -> e2 2%nat = 3 ->
  K1 0%nat = 3 -> K1 1%nat = 0 -> K1 2%nat = 4 -> K2 0%nat = - 3 -> K2 1%nat = 0 -> K2 2%nat = 4 ->
  exists s sh, twin_candidate K1 e1 K2 e2 = Some (s, sh).
Proof.
  intros A0 A1 A2 B0 B1 B2 C0 C1 C2 D0 D1 D2. unfold twin_candidate.
  rewrite (normalize_known e1 5) by (try lra; unfold dot3; rewrite A0, A1, A2; lra).
  rewrite (normalize_known K1 5) by (try lra; unfold dot3; rewrite C0, C1, C2; lra).
  rewrite (normalize_known K2 5) by (try lra; unfold dot3; rewrite D0, D1, D2; lra).
  rewrite (normalize_known e2 5) by (try lra; unfold dot3; rewrite B0, B1, B2; lra).
  set (l := fun i : nat => e1 i / 5). set (m := fun i : nat => K1 i / 5). set (n := fun i : nat => K2 i / 5). set (g := fun i : nat => e2 i / 5).
  assert (l0 : l 0%nat = - 4 / 5) by (unfold l; rewrite A0; lra). assert (l1 : l 1%nat = 0) by (unfold l; rewrite A1; lra). assert (l2 : l 2%nat = 3 / 5) by (unfold l; rewrite A2; lra).
  assert (g0 : g 0%nat = 4 / 5) by (unfold g; rewrite B0; lra). assert (g1 : g 1%nat = 0) by (unfold g; rewrite B1; lra). assert (g2 : g 2%nat = 3 / 5) by (unfold g; rewrite B2; lra).
  assert (m0 : m 0%nat = 3 / 5) by (unfold m; rewrite C0; lra). assert (m1 : m 1%nat = 0) by (unfold m; rewrite C1; lra). assert (m2 : m 2%nat = 4 / 5) by (unfold m; rewrite C2; lra).
  assert (n0 : n 0%nat = - 3 / 5) by (unfold n; rewrite D0; lra). assert (n1 : n 1%nat = 0) by (unfold n; rewrite D1; lra). assert (n2 : n 2%nat = 4 / 5) by (unfold n; rewrite D2; lra).
  cbv zeta. match goal with |- context [normalize3 (fun k => 2 * (K1 k / 5 - e2 k / 5 / ?v))] => change (fun k => 2 * (K1 k / 5 - e2 k / 5 / v)) with (fun k => 2 * (m k - g k / v)) end.
  clearbody l m n g.
  assert (Vgm : dot3 g m = 24 / 25) by (unfold dot3; rewrite g0, g1, g2, m0, m1, m2; lra). rewrite Vgm.
  assert (Cz : close (24 / 25) 0 = false).
  { unfold close, isclose, atol, rtol. destruct (Rle_dec _ _) as [H|_]; [exfalso | reflexivity]. rewrite Rabs_R0, Rabs_right in H by lra. lra. }
  rewrite Cz.
  rewrite (normalize_known (fun k => 2 * (m k - g k / (24 / 25))) (7 / 12)) by (try lra; unfold dot3; rewrite g0, g1, g2, m0, m1, m2; lra).
  match goal with |- context [Rabs (dot3 ?u l)] => assert (Vl : dot3 u l = 1) by (unfold dot3; rewrite l0, l1, l2, m0, m1, m2, g0, g1, g2; lra); rewrite Vl end.
  rewrite Rabs_R1, close_refl. cbn [negb].
  rewrite (normalize_known (cross3 l m) 1) by (try lra; unfold dot3, cross3; rewrite l0, l1, l2, m0, m1, m2; lra).
  rewrite (normalize_known (cross3 g _) 1) by (try lra; unfold dot3, cross3; rewrite l0, l1, l2, m0, m1, m2, g0, g1, g2; lra).
  match goal with |- context [Rabs (dot3 ?u n)] => assert (Vn : dot3 u n = 1) by (unfold dot3, cross3; rewrite l0, l1, l2, m0, m1, m2, g0, g1, g2, n0, n1, n2; lra); rewrite Vn end.
  rewrite Rabs_R1, close_refl. cbn [negb].
  destruct (Rlt_dec (dot3 l g) 0) as [_|F]; [| exfalso; apply F; unfold dot3; rewrite l0, l1, l2, g0, g1, g2; lra].
  destruct (Rlt_dec 0.5 (dot3 l n)) as [_|F]; [| exfalso; apply F; unfold dot3; rewrite l0, l1, l2, n0, n1, n2; lra].
  destruct (Rlt_dec 0.5 (24 / 25)) as [_|F]; [| exfalso; lra].
  unfold setAxisAngle, convert_angle. cbn [String.eqb Ascii.eqb]. eexists. eexists. reflexivity.
Qed.
Lemma twins_nonempty r e1 K1 e2 K2 : (exists s sh, twin_candidate (apply_v (O4 1 0 0 0) K1) (apply_v (O4 1 0 0 0) e1) (apply_v (O4 1 0 0 0) K2) (apply_v (O4 1 0 0 0) e2) = Some (s, sh)) ->
  fst (twin_systems (O4 1 0 0 0 :: r) e1 K1 e2 K2) <> [].
Proof.
  intros (s & sh & H). destruct (twin_systems_ok (O4 1 0 0 0 :: r) e1 K1 e2 K2) as (_ & A & _).
  assert (S : twin_sources (O4 1 0 0 0 :: r) e1 K1 e2 K2 (apply_v (O4 1 0 0 0) K1, apply_v (O4 1 0 0 0) e1, apply_v (O4 1 0 0 0) K2, apply_v (O4 1 0 0 0) e2)) by (unfold twin_sources; repeat split; apply first_equivalent).
  destruct (A _ _ _ _ s sh S H) as (t & I & _). intros E. rewrite E in I. destruct I.
Qed.
Lemma add_group_some L G : g_sys G <> [] -> la_groups (add_group L G) = la_groups L ++ [G].
Proof. intros H. unfold add_group. destruct (g_sys G); [contradiction | reflexivity]. Qed.
Definition hcp_c : R := 3 * sqrt 3 / 4.
Definition hcp_calls : list lcall := [AddTwin [-1; 0; 1; 1]%Z [1; 0; -1; 2]%Z [1; 0; -1; 1]%Z [-1; 0; 1; 2]%Z; AddSlip [1; 1; -2; 0]%Z [0; 0; 0; 1]%Z].
Definition cubic_calls : list lcall := [AddTwin [-4; 0; 3]%Z [3; 0; 4]%Z [4; 0; 3]%Z [-3; 0; 4]%Z].
Lemma hcp_new : lat_new (bare (LHCP 1 hcp_c)) = Some (mkLO (bare (LHCP 1 hcp_c)) lattice0 [] []).
Proof. reflexivity. Qed.
Lemma cubic_new a : lat_new (bare (LCubic a)) = Some (mkLO (bare (LCubic a)) lattice0 [] []).
Proof. reflexivity. Qed.
Lemma hcp_small : (forall x, In x hcp_calls -> small_call x) /\ (forall x, In x cubic_calls -> small_call x).
Proof. split; intros x I; cbn in I; repeat destruct I as [<-|I]; try destruct I; cbn; repeat split; repeat constructor; unfold int32; lia. Qed.
Lemma hcp_groups hash ops : shape_ops (LHCP 1 hcp_c) = Some ops -> let r := lat_calls hash ops hcp_calls (mkLO (bare (LHCP 1 hcp_c)) lattice0 [] []) in
  snd r = [true; true] /\ map g_twin (la_groups (lo_lat (fst r))) = [true; false].
Proof.
  intros E r. destruct (calls_facts hash ops hcp_calls (mkLO (bare (LHCP 1 hcp_c)) lattice0 [] [])) as (_ & _ & _ & D). split; [exact D |].
  assert (T : sqrt 3 * sqrt 3 = 3) by (apply sqrt_sqrt; lra). assert (Tp : 0 < sqrt 3) by (apply sqrt_lt_R0; lra). assert (Tn : sqrt 3 <> 0) by lra.
  assert (Hops : ops = O4 1 0 0 0 :: slice 1 12 hexagonal) by (cbn in E; injection E as <-; reflexivity).
  set (K := hcp_cell 1 hcp_c).
  set (e1 := vsum3 (vs (IZR (-2)) (c1 K)) (vs (IZR (-1)) (c2 K)) (vs (IZR 1) (c3 K))). set (e2 := vsum3 (vs (IZR 2) (c1 K)) (vs (IZR 1) (c2 K)) (vs (IZR 1) (c3 K))).
  set (K1 := vsum3 (vs (IZR 1) (cb1 K)) (vs (IZR 0) (cb2 K)) (vs (IZR 2) (cb3 K))). set (K2 := vsum3 (vs (IZR (-1)) (cb1 K)) (vs (IZR 0) (cb2 K)) (vs (IZR 2) (cb3 K))).
  set (d := vsum3 (vs (IZR 1) (c1 K)) (vs (IZR 1) (c2 K)) (vs (IZR 0) (c3 K))). set (p := vsum3 (vs (IZR 0) (cb1 K)) (vs (IZR 0) (cb2 K)) (vs (IZR 1) (cb3 K))).
  assert (R0 : fst r = mkLO (bare (LHCP 1 hcp_c)) (add_group (add_group lattice0 {| g_sys := fst (twin_systems ops e1 K1 e2 K2); g_twin := true; g_shear := snd (twin_systems ops e1 K1 e2 K2) |})
     {| g_sys := slip_systems ops d p; g_twin := false; g_shear := 0 |}) (slips_of hcp_calls) (twins_of hcp_calls)) by reflexivity.
  rewrite R0. cbn [lo_lat].
  assert (b10 : cb1 K 0%nat = 1) by (unfold cb1, recip, cross3, dot3, K, hcp_cell, v3, hcp_c; cbn [c1 c2 c3]; cbv beta iota; field_simplify_eq; [nra | nra]).
  assert (b11 : cb1 K 1%nat = - sqrt 3 / 3) by (unfold cb1, recip, cross3, dot3, K, hcp_cell, v3, hcp_c; cbn [c1 c2 c3]; cbv beta iota; field_simplify_eq; [nra | nra]).
  assert (b12 : cb1 K 2%nat = 0) by (unfold cb1, recip, cross3, dot3, K, hcp_cell, v3, hcp_c; cbn [c1 c2 c3]; cbv beta iota; field_simplify_eq; [nra | nra]).
  assert (b30 : cb3 K 0%nat = 0) by (unfold cb3, recip, cross3, dot3, K, hcp_cell, v3, hcp_c; cbn [c1 c2 c3]; cbv beta iota; field_simplify_eq; [nra | nra]).
  assert (b31 : cb3 K 1%nat = 0) by (unfold cb3, recip, cross3, dot3, K, hcp_cell, v3, hcp_c; cbn [c1 c2 c3]; cbv beta iota; field_simplify_eq; [nra | nra]).
  assert (b32 : cb3 K 2%nat = 4 * sqrt 3 / 9) by (unfold cb3, recip, cross3, dot3, K, hcp_cell, v3, hcp_c; cbn [c1 c2 c3]; cbv beta iota; field_simplify_eq; [nra | nra]).
  rewrite !add_group_some; [reflexivity | |]; cbn [g_sys]; rewrite Hops.
  - apply twins_nonempty. apply hcp_twin_found; rewrite id_apply by lia; unfold e1, e2, K1, K2, vsum3, vs; rewrite ?b10, ?b11, ?b12, ?b30, ?b31, ?b32; unfold K, hcp_cell, v3, hcp_c; cbn [c1 c2 c3]; cbv beta iota; lra.
  - unfold slip_systems. intros Z.
    assert (P : slip_pair (apply_v (O4 1 0 0 0) d) (apply_v (O4 1 0 0 0) p) <> []).
    { unfold slip_pair. rewrite (normalize_known (apply_v _ d) 1) by (try lra; unfold dot3; rewrite !id_apply by lia; unfold d, vsum3, vs, K, hcp_cell, v3; cbn [c1 c2 c3]; cbv beta iota; lra).
      rewrite (normalize_known (apply_v _ p) (4 * sqrt 3 / 9)) by (try lra; unfold dot3; rewrite !id_apply by lia; unfold p, vsum3, vs; rewrite ?b10, ?b11, ?b12, ?b30, ?b31, ?b32; nra).
      replace (dot3 _ _) with 0; [rewrite close_refl; discriminate |]. unfold dot3. rewrite !id_apply by lia. unfold d, p, vsum3, vs. rewrite ?b10, ?b11, ?b12, ?b30, ?b31, ?b32. unfold K, hcp_cell, v3; cbn [c1 c2 c3]; cbv beta iota. field. nra. }
    destruct (slip_pair (apply_v (O4 1 0 0 0) d) (apply_v (O4 1 0 0 0) p)) as [|s tl] eqn:Es; [apply P; reflexivity |].
    assert (I : In s []); [| destruct I]. rewrite <- Z. apply in_flat_map. exists (apply_v (O4 1 0 0 0) d). split; [apply first_bidirectional |].
    apply in_flat_map. exists (apply_v (O4 1 0 0 0) p). split; [apply first_bidirectional |]. rewrite Es. left. reflexivity.
Qed.
Lemma cubic_groups hash ops : shape_ops (LCubic 1) = Some ops -> let r := lat_calls hash ops cubic_calls (mkLO (bare (LCubic 1)) lattice0 [] []) in
  snd r = [true] /\ map g_twin (la_groups (lo_lat (fst r))) = [true].
Proof.
  intros E r. destruct (calls_facts hash ops cubic_calls (mkLO (bare (LCubic 1)) lattice0 [] [])) as (_ & _ & _ & D). split; [exact D |].
  assert (Hops : ops = O4 1 0 0 0 :: slice 1 24 cubic) by (cbn in E; injection E as <-; reflexivity).
  set (K := cubic_cell 1).
  set (e1 := vsum3 (vs (IZR (-4)) (c1 K)) (vs (IZR 0) (c2 K)) (vs (IZR 3) (c3 K))). set (e2 := vsum3 (vs (IZR 4) (c1 K)) (vs (IZR 0) (c2 K)) (vs (IZR 3) (c3 K))).
  set (K1 := vsum3 (vs (IZR 3) (cb1 K)) (vs (IZR 0) (cb2 K)) (vs (IZR 4) (cb3 K))). set (K2 := vsum3 (vs (IZR (-3)) (cb1 K)) (vs (IZR 0) (cb2 K)) (vs (IZR 4) (cb3 K))).
  assert (R0 : fst r = mkLO (bare (LCubic 1)) (add_group lattice0 {| g_sys := fst (twin_systems ops e1 K1 e2 K2); g_twin := true; g_shear := snd (twin_systems ops e1 K1 e2 K2) |}) (slips_of cubic_calls) (twins_of cubic_calls)) by reflexivity.
  rewrite R0. cbn [lo_lat]. rewrite add_group_some; [reflexivity |]. cbn [g_sys]. rewrite Hops. apply twins_nonempty.
  apply cubic_twin_found; rewrite id_apply by lia; unfold e1, e2, K1, K2, vsum3, vs, cb1, cb2, cb3, recip, cross3, dot3, K, cubic_cell, v3; cbn [c1 c2 c3]; cbv beta iota; lra.
Qed.
Lemma ops_hcp : exists ops, shape_ops (LHCP 1 hcp_c) = Some ops.
Proof. eexists. reflexivity. Qed.
(** a twin added before a slip system: the groups come back in another order *)
Lemma order_changed hash : exists ops o o', shape_ops (LHCP 1 hcp_c) = Some ops /\
  lat_calls hash ops hcp_calls (mkLO (bare (LHCP 1 hcp_c)) lattice0 [] []) = (o, [true; true]) /\ lat_new (bare (LHCP 1 hcp_c)) = Some (mkLO (bare (LHCP 1 hcp_c)) lattice0 [] []) /\
  lat_load (lat_save o) = Some o' /\ lo_slip o' = lo_slip o /\ lo_twin o' = lo_twin o /\
  map g_twin (la_groups (lo_lat o)) = [true; false] /\ map g_twin (la_groups (lo_lat o')) <> [true; false].
Proof.
  destruct ops_hcp as (ops & E). destruct (hcp_groups hash ops E) as (F & G). cbv zeta in F, G.
  assert (S2 : forall x, In x (map AS (mb_slip (lp_slip (bare (LHCP 1 hcp_c)))) ++ map AT (mb_twin (lp_twin (bare (LHCP 1 hcp_c))))) -> small_call x) by (intros x []).
  destruct (reload_systems hash (bare (LHCP 1 hcp_c)) ops hcp_calls _ E hcp_new Logic.I (proj1 hcp_small) S2) as (o' & L & _ & _ & _ & A & B); [rewrite F; reflexivity |].
  exists ops, (fst (lat_calls hash ops hcp_calls (mkLO (bare (LHCP 1 hcp_c)) lattice0 [] []))), o'. split; [exact E |]. split; [rewrite <- F; apply surjective_pairing |]. split; [exact hcp_new |]. split; [exact L |]. split; [exact A |]. split; [exact B |]. split; [exact G |].
  intros Z. pose proof (reload_order hash (bare (LHCP 1 hcp_c)) ops hcp_calls _ o' E hcp_new Logic.I (proj1 hcp_small) S2 L) as O.
  destruct (la_groups (lo_lat o')) as [|G1 [|G2 [|G3 r]]] eqn:Eg; try discriminate Z. cbn in Z. injection Z as Z1 Z2. specialize (O [] G1 [G2] G2 eq_refl Z1 (or_introl eq_refl)). congruence.
Qed.
(** a cubic lattice with a twin: gone *)
Lemma cubic_loses hash : exists ops o o', shape_ops (LCubic 1) = Some ops /\
  lat_calls hash ops cubic_calls (mkLO (bare (LCubic 1)) lattice0 [] []) = (o, [true]) /\ lat_new (bare (LCubic 1)) = Some (mkLO (bare (LCubic 1)) lattice0 [] []) /\
  lat_load (lat_save o) = Some o' /\ map g_twin (la_groups (lo_lat o)) = [true] /\ la_groups (lo_lat o') = [].
Proof.
  assert (E0 : exists ops, shape_ops (LCubic 1) = Some ops) by (eexists; reflexivity). destruct E0 as (ops & E). destruct (cubic_groups hash ops E) as (F & G). cbv zeta in F, G.
  assert (S2 : forall x, In x (map AS (mb_slip (lp_slip (bare (LCubic 1)))) ++ map AT (mb_twin (lp_twin (bare (LCubic 1))))) -> small_call x) by (intros x []).
  destruct (reload_form hash (bare (LCubic 1)) ops cubic_calls _ E (cubic_new 1) Logic.I) as (q & _ & _ & L & _); [intros x J; apply (proj2 hcp_small); exact J |]. cbv zeta in L.
  exists ops, (fst (lat_calls hash ops cubic_calls (mkLO (bare (LCubic 1)) lattice0 [] []))), (mkLO q lattice0 [] []).
  split; [exact E |]. split; [rewrite <- F; apply surjective_pairing |]. split; [apply cubic_new |]. split; [exact L |]. split; [exact G | reflexivity].
Qed.
(** three indices for a hexagonal lattice: an exception, and the lattice cannot be read back *)
Lemma failed_case hash : exists ops o, shape_ops (LHCP 1 hcp_c) = Some ops /\ lat_calls hash ops [AddSlip [1; 1; 0]%Z [0; 0; 1]%Z] (mkLO (bare (LHCP 1 hcp_c)) lattice0 [] []) = (o, [false]) /\
  lo_lat o = lattice0 /\ lat_load (lat_save o) = None.
Proof.
  destruct ops_hcp as (ops & E). exists ops, (mkLO (bare (LHCP 1 hcp_c)) lattice0 [([1; 1; 0]%Z, [0; 0; 1]%Z)] []). split; [exact E |]. split; [reflexivity |]. split; [reflexivity |].
  apply (failed_unreadable hash (bare (LHCP 1 hcp_c)) ops [AddSlip [1; 1; 0]%Z [0; 0; 1]%Z] _ Logic.I E hcp_new Logic.I).
  - intros x [<-|[]]. cbn. split; repeat constructor; unfold int32; lia.
  - intros x [].
  - left. reflexivity.
Qed.
Lemma six_one : six_digits 1.
Proof. exists 1%Z, 0%Z. split; [lia | cbn; lra]. Qed.
Lemma cubic_same_case hash : exists ops o o', shape_ops (LCubic 1) = Some ops /\
  lat_calls hash ops [AddSlip [1; 1; 0]%Z [1; 1; 1]%Z; Ask (Quat 1 0 0 0); AddSlip [1; 1; 1]%Z [1; 1; 0]%Z] (mkLO (bare (LCubic 1)) lattice0 [] []) = (o, [true; true; true]) /\
  lat_load (lat_save o) = Some o' /\ same_systems (lo_lat o') (lo_lat o).
Proof.
  assert (E0 : exists ops, shape_ops (LCubic 1) = Some ops) by (eexists; reflexivity). destruct E0 as (ops & E). set (cs := [AddSlip _ _; _; _]).
  assert (F : snd (lat_calls hash ops cs (mkLO (bare (LCubic 1)) lattice0 [] [])) = [true; true; true]) by (destruct (calls_facts hash ops cs (mkLO (bare (LCubic 1)) lattice0 [] [])) as (_ & _ & _ & D); exact D).
  destruct (reload_same hash (bare (LCubic 1)) ops cs _ E (cubic_new 1) six_one) as (o' & L & _ & S & _).
  - intros x I. cbn in I. repeat destruct I as [<-|I]; try destruct I; cbn; repeat split; repeat constructor; unfold int32; lia.
  - intros x [].
  - intros l m d p e1 K1 e2 K2 Eq. cbn [bare lp_slip lp_twin of_slip of_twin mb_slip mb_twin map app] in Eq. exfalso. unfold cs in Eq. destruct l as [|x1 [|x2 [|x3 l]]]; cbn in Eq; try discriminate Eq. injection Eq as _ _ _ Eq. destruct l; discriminate Eq.
  - reflexivity.
  - rewrite F. reflexivity.
  - exists ops, (fst (lat_calls hash ops cs (mkLO (bare (LCubic 1)) lattice0 [] []))), o'. split; [exact E |]. split; [rewrite <- F; apply surjective_pairing |]. split; assumption.
Qed.

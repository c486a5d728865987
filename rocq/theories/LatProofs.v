(** Proofs about the parameters of lattices. *)
From Coq Require Import String Ascii ZArith List Arith Lia Lra.
From Verif Require Import Base.
From Verif Require Import HistModel TextModel ParseModel TextProofs ParseSpec ParseProofs NemlMathModel RotModel TensorModel CrystModel PycModel PycSpec PycProofs LatModel LatSpec.
Import ListNotations.
Open Scope list_scope.

(** *** the calls *)
Definition okc (s : lshape) (c : lcall) : bool :=
  match c with
  | AddSlip d p => match shape_d s d, shape_p s p with Some _, Some _ => true | _, _ => false end
  | AddTwin e1 K1 e2 K2 => match shape_p s K1, shape_d s e2, shape_d s e1, shape_p s K2 with Some _, Some _, Some _, Some _ => true | _, _, _, _ => false end
  | Ask _ => true end.
Lemma call_flag hash ops c o : snd (lat_call hash ops c o) = okc (lp_shape (lo_par o)) c.
Proof.
  destruct c as [d p|e1 K1 e2 K2|Q]; [| | reflexivity]; cbn [lat_call okc]; unfold lo_add_slip, lo_add_twin, add_slip_system, add_twin_system; cbn [lo_par lo_lat].
  - destruct (shape_d _ d); [destruct (shape_p _ p) |]; reflexivity.
  - destruct (shape_p _ K1); [destruct (shape_d _ e2); [destruct (shape_d _ e1); [destruct (shape_p _ K2) |] |] |]; reflexivity.
Qed.
Lemma call_par hash ops c o : lo_par (fst (lat_call hash ops c o)) = lo_par o.
Proof.
  destruct c as [d p|e1 K1 e2 K2|Q]; cbn [lat_call]; unfold lo_add_slip, lo_add_twin; [destruct (add_slip_system _ _ _ _ _ _); reflexivity | destruct (add_twin_system _ _ _ _ _ _ _ _); reflexivity | reflexivity].
Qed.
Lemma call_slip hash ops c o : lo_slip (fst (lat_call hash ops c o)) = lo_slip o ++ slips_of [c].
Proof.
  destruct c as [d p|e1 K1 e2 K2|Q]; cbn [lat_call slips_of flat_map app]; unfold lo_add_slip, lo_add_twin; [destruct (add_slip_system _ _ _ _ _ _) | destruct (add_twin_system _ _ _ _ _ _ _ _) | ]; cbn [fst lo_slip]; rewrite ?app_nil_r; reflexivity.
Qed.
Lemma call_twin hash ops c o : lo_twin (fst (lat_call hash ops c o)) = lo_twin o ++ twins_of [c].
Proof.
  destruct c as [d p|e1 K1 e2 K2|Q]; cbn [lat_call twins_of flat_map app]; unfold lo_add_slip, lo_add_twin; [destruct (add_slip_system _ _ _ _ _ _) | destruct (add_twin_system _ _ _ _ _ _ _ _) | ]; cbn [fst lo_twin]; rewrite ?app_nil_r; reflexivity.
Qed.
Lemma slips_app a b : slips_of (a ++ b) = slips_of a ++ slips_of b.
Proof. unfold slips_of. apply flat_map_app. Qed.
Lemma twins_app a b : twins_of (a ++ b) = twins_of a ++ twins_of b.
Proof. unfold twins_of. apply flat_map_app. Qed.
Lemma calls_facts hash ops cs : forall o, let r := lat_calls hash ops cs o in
  lo_par (fst r) = lo_par o /\ lo_slip (fst r) = lo_slip o ++ slips_of cs /\ lo_twin (fst r) = lo_twin o ++ twins_of cs /\ snd r = map (okc (lp_shape (lo_par o))) cs.
Proof.
  induction cs as [|c cs IH]; intros o.
  - cbn. rewrite !app_nil_r. repeat split.
  - cbn [lat_calls]. cbv zeta. cbn [fst snd map]. destruct (IH (fst (lat_call hash ops c o))) as (A & B & C & D). cbv zeta in A, B, C, D. rewrite A, B, C, D, call_par, call_slip, call_twin, call_flag.
    change (c :: cs) with ([c] ++ cs). rewrite slips_app, twins_app, !app_assoc. repeat split.
Qed.
Lemma calls_app hash ops a b o : lat_calls hash ops (a ++ b) o = (fst (lat_calls hash ops b (fst (lat_calls hash ops a o))), snd (lat_calls hash ops a o) ++ snd (lat_calls hash ops b (fst (lat_calls hash ops a o)))).
Proof.
  revert o. induction a as [|c a IH]; intros o; cbn [app lat_calls]; cbv zeta; cbn [fst snd]; [apply surjective_pairing |]. rewrite IH. reflexivity.
Qed.
Lemma add_slips_calls hash ops l : forall o, add_slips ops l o = if forallb (fun b => b) (snd (lat_calls hash ops (map AS l) o)) then Some (fst (lat_calls hash ops (map AS l) o)) else None.
Proof.
  induction l as [|[d p] l IH]; intros o; [reflexivity |]. cbn [add_slips map lat_calls AS fst snd forallb]. cbv zeta. cbn [fst snd forallb]. change (lat_call hash ops (AS (d, p)) o) with (lo_add_slip ops o d p).
  destruct (snd (lo_add_slip ops o d p)); [|reflexivity]. cbn [andb]. apply IH.
Qed.
Lemma add_twins_calls hash ops l : forall o, add_twins ops l o = if forallb (fun b => b) (snd (lat_calls hash ops (map AT l) o)) then Some (fst (lat_calls hash ops (map AT l) o)) else None.
Proof.
  induction l as [|[[[d p] e] q] l IH]; intros o; [reflexivity |]. cbn [add_twins map lat_calls AT fst snd forallb]. cbv zeta. cbn [fst snd forallb]. change (lat_call hash ops (AT (d, p, e, q)) o) with (lo_add_twin ops o d p e q).
  destruct (snd (lo_add_twin ops o d p e q)); [|reflexivity]. cbn [andb]. apply IH.
Qed.
Definition given (p : lparams) : list lcall := map AS (mb_slip (lp_slip p)) ++ map AT (mb_twin (lp_twin p)).
Lemma new_calls hash p : lat_new p = match shape_ops (lp_shape p) with None => None | Some ops =>
  let r := lat_calls hash ops (given p) (mkLO p lattice0 [] []) in if forallb (fun b => b) (snd r) then Some (fst r) else None end.
Proof.
  unfold lat_new. destruct (shape_ops (lp_shape p)) as [ops|]; [|reflexivity]. cbv zeta. unfold given. rewrite calls_app, (add_slips_calls hash). cbn [fst snd]. rewrite forallb_app.
  destruct (forallb _ (snd (lat_calls hash ops (map AS _) _))); [|reflexivity]. cbn [andb]. apply add_twins_calls.
Qed.
Lemma slips_AS l : slips_of (map AS l) = l.
Proof. induction l as [|[d p] l IH]; [reflexivity |]. cbn. f_equal. exact IH. Qed.
Lemma twins_AT l : twins_of (map AT l) = l.
Proof. induction l as [|[[[d p] e] q] l IH]; [reflexivity |]. cbn. f_equal. exact IH. Qed.
Lemma slips_AT l : slips_of (map AT l) = [].
Proof. induction l as [|[[[d p] e] q] l IH]; [reflexivity |]. exact IH. Qed.
Lemma twins_AS l : twins_of (map AS l) = [].
Proof. induction l as [|[d p] l IH]; [reflexivity |]. exact IH. Qed.
Lemma given_slips p : slips_of (given p) = mb_slip (lp_slip p).
Proof. unfold given. rewrite slips_app, slips_AS, slips_AT, app_nil_r. reflexivity. Qed.
Lemma given_twins p : twins_of (given p) = mb_twin (lp_twin p).
Proof. unfold given. rewrite twins_app, twins_AS, twins_AT. reflexivity. Qed.

(** *** saving and reading *)
Lemma shape_schema s : exists s0, lat_schema s = lat_schema s0 /\ setups lat_factory (lat_type s) = Some (lat_schema s0).
Proof. destruct s; [exists (LGeneral [] [] [] []) | exists (LCubic 0) | exists (LHCP 0 0)]; split; reflexivity. Qed.
Lemma lp_wf p : named (lp_shape p) ->
  (forall a b, In (a, b) (mb_slip (lp_slip p)) -> List.Forall int32 a /\ List.Forall int32 b) ->
  (forall a b, In (a, b) (mb_slip (lp_twin p)) -> List.Forall int32 a /\ List.Forall int32 b) ->
  (forall a b c d, In (a, b, c, d) (mb_twin (lp_twin p)) -> List.Forall int32 a /\ List.Forall int32 b /\ List.Forall int32 c /\ List.Forall int32 d) ->
  wf_obj lat_factory (lp_object p).
Proof.
  intros N A B C. destruct p as [s S T]. cbn [lp_shape lp_slip lp_twin] in *. unfold lp_object. cbn [lp_shape lp_slip lp_twin].
  destruct s as [a1 a2 a3 g|a|a c]; cbn [lat_type twin_type app].
  - apply (WF_obj lat_factory "GeneralLattice"%string _ (lat_schema (LGeneral [] [] [] []))); try reflexivity; try discriminate.
    + repeat constructor; cbn; intuition discriminate.
    + cbn; intuition discriminate.
    + intros k v I. cbn [In] in I.
      destruct I as [I|[I|[I|[I|[I|[I|[]]]]]]]; injection I as <- <-.
      * exists PT_vec_double, None. split; [cbn; tauto | constructor].
      * exists PT_vec_double, None. split; [cbn; tauto | constructor].
      * exists PT_vec_double, None. split; [cbn; tauto | constructor].
      * exists PT_object, None. split; [cbn; tauto | constructor].
        apply (WF_obj lat_factory "SymmetryGroup"%string _ [("sclass"%string, PT_string, None)]); try reflexivity; try discriminate.
        -- repeat constructor; cbn; intuition discriminate.
        -- cbn; intuition discriminate.
        -- intros k v [I|[]]. injection I as <- <-. exists PT_string, None. split; [left; reflexivity | constructor; exact N].
      * exists PT_slip, (Some (VSlip [])). split; [cbn; tauto | constructor; exact A].
      * exists PT_slip, (Some (VSlip [])). split; [cbn; tauto | constructor; exact B].
  - apply (WF_obj lat_factory "CubicLattice"%string _ (lat_schema (LCubic 0))); try reflexivity; try discriminate.
    + repeat constructor; cbn; intuition discriminate.
    + cbn; intuition discriminate.
    + intros k v I. cbn [In] in I. destruct I as [I|[I|[I|[]]]]; injection I as <- <-.
      * exists PT_double, None. split; [cbn; tauto | constructor].
      * exists PT_slip, (Some (VSlip [])). split; [cbn; tauto | constructor; exact A].
      * exists PT_slip, (Some (VSlip [])). split; [cbn; tauto | constructor; exact B].
  - apply (WF_obj lat_factory "HCPLattice"%string _ (lat_schema (LHCP 0 0))); try reflexivity; try discriminate.
    + repeat constructor; cbn; intuition discriminate.
    + cbn; intuition discriminate.
    + intros k v I. cbn [In] in I. destruct I as [I|[I|[I|[I|[]]]]]; injection I as <- <-.
      * exists PT_double, None. split; [cbn; tauto | constructor].
      * exists PT_double, None. split; [cbn; tauto | constructor].
      * exists PT_slip, (Some (VSlip [])). split; [cbn; tauto | constructor; exact A].
      * exists PT_twin, (Some (VTwin [])). split; [cbn; tauto | constructor; exact C].
Qed.
Definition read_twins (s : lshape) (m : members) : members := match twin_type s with PT_twin => of_twin (mb_twin m) | _ => of_slip (mb_slip m) end.
Lemma lp_reread p : lp_read (round_obj (lp_object p)) = Some (mkLP (round_shape (lp_shape p)) (of_slip (mb_slip (lp_slip p))) (read_twins (lp_shape p) (lp_twin p))).
Proof. destruct p as [s S T]. destruct s; reflexivity. Qed.
Lemma in_slips cs a b : (forall c, In c cs -> small_call c) -> In (a, b) (slips_of cs) -> List.Forall int32 a /\ List.Forall int32 b.
Proof. intros H I. unfold slips_of in I. apply in_flat_map in I. destruct I as (c & Ic & I). apply H in Ic. destruct c; cbn in I; try contradiction. destruct I as [I|[]]. injection I as <- <-. exact Ic. Qed.
Lemma in_twins cs a b c d : (forall c, In c cs -> small_call c) -> In (a, b, c, d) (twins_of cs) -> List.Forall int32 a /\ List.Forall int32 b /\ List.Forall int32 c /\ List.Forall int32 d.
Proof. intros H I. unfold twins_of in I. apply in_flat_map in I. destruct I as (x & Ic & I). apply H in Ic. destruct x; cbn in I; try contradiction. destruct I as [I|[]]. injection I as <- <- <- <-. exact Ic. Qed.
(** the history of an object: what the constructor adds, then the calls *)
Lemma history hash p ops cs o0 : shape_ops (lp_shape p) = Some ops -> lat_new p = Some o0 ->
  let r := lat_calls hash ops (given p ++ cs) (mkLO p lattice0 [] []) in
  fst (lat_calls hash ops cs o0) = fst r /\ forallb (fun b => b) (snd (lat_calls hash ops (given p) (mkLO p lattice0 [] []))) = true /\
  lo_slip (fst r) = slips_of (given p ++ cs) /\ lo_twin (fst r) = twins_of (given p ++ cs) /\ lo_par (fst r) = p /\ lo_par o0 = p.
Proof.
  intros E H r. rewrite (new_calls hash), E in H. cbv zeta in H. destruct (forallb _ _) eqn:Fb; [|discriminate]. injection H as <-.
  destruct (calls_facts hash ops (given p ++ cs) (mkLO p lattice0 [] [])) as (A & B & C & _). cbv zeta in A, B, C. fold r in A, B, C. cbn [lo_par lo_slip lo_twin app] in A, B, C.
  destruct (calls_facts hash ops (given p) (mkLO p lattice0 [] [])) as (A' & _). cbv zeta in A'.
  split; [unfold r; rewrite calls_app; reflexivity |]. split; [reflexivity |]. split; [exact B |]. split; [exact C |]. split; [exact A | exact A'].
Qed.
Lemma reload_is o : named (lp_shape (lo_par o)) -> (forall a b, In (a, b) (lo_slip o) -> List.Forall int32 a /\ List.Forall int32 b) ->
  (forall a b c d, In (a, b, c, d) (lo_twin o) -> List.Forall int32 a /\ List.Forall int32 b /\ List.Forall int32 c /\ List.Forall int32 d) ->
  lat_load (lat_save o) = lat_new (mkLP (round_shape (lp_shape (lo_par o))) (of_slip (lo_slip o)) (match lp_shape (lo_par o) with LHCP _ _ => of_twin (lo_twin o) | _ => of_slip [] end)).
Proof.
  intros N A B. unfold lat_load, lat_save. rewrite roundtrip by (apply lp_wf; [exact N | exact A | intros a b [] | exact B]). rewrite lp_reread.
  unfold read_twins, current_parameters. cbn [lp_shape lp_slip lp_twin of_slip of_twin mb_slip mb_twin]. destruct (lp_shape (lo_par o)); reflexivity.
Qed.

(** *** success does not depend on the numbers *)
Lemma comb_defined x y z x' y' z' m : (exists v, miller_comb x y z m = Some v) <-> (exists v, miller_comb x' y' z' m = Some v).
Proof.
  unfold miller_comb. destruct (Nat.eqb (length m) 3); [|split; intros (v & E); discriminate]. destruct (reduce_gcd m) as [[|h [|k [|l [|q r]]]]|]; split; intros (v & E); try discriminate; eexists; reflexivity.
Qed.
Lemma shape_d_defined s m : (exists v, shape_d s m = Some v) <-> (exists v, shape_d (round_shape s) m = Some v).
Proof.
  destruct s as [a1 a2 a3 g|a|a c]; cbn [shape_d round_shape]; try apply comb_defined. unfold hcp_direction.
  destruct m as [|u [|v [|t [|w [|q r]]]]]; try (split; intros (x & E); discriminate). destruct (Z.eqb (u + v + t) 0); [apply comb_defined | split; intros (x & E); discriminate].
Qed.
Lemma shape_p_defined s m : (exists v, shape_p s m = Some v) <-> (exists v, shape_p (round_shape s) m = Some v).
Proof.
  destruct s as [a1 a2 a3 g|a|a c]; cbn [shape_p round_shape]; try apply comb_defined. unfold hcp_plane.
  destruct m as [|u [|v [|t [|w [|q r]]]]]; try (split; intros (x & E); discriminate). destruct (Z.eqb (u + v + t) 0); [apply comb_defined | split; intros (x & E); discriminate].
Qed.
Definition isS {A} (x : option A) : bool := match x with Some _ => true | None => false end.
Lemma isS_iff {A B} (x : option A) (y : option B) : ((exists v, x = Some v) <-> (exists v, y = Some v)) -> isS x = isS y.
Proof.
  intros [H K]. destruct x as [a|], y as [b|]; try reflexivity; exfalso.
  - destruct (H (ex_intro _ a eq_refl)) as (v & E). discriminate.
  - destruct (K (ex_intro _ b eq_refl)) as (v & E). discriminate.
Qed.
Lemma okc_isS s c : okc s c = match c with AddSlip d p => andb (isS (shape_d s d)) (isS (shape_p s p))
  | AddTwin e1 K1 e2 K2 => andb (isS (shape_p s K1)) (andb (isS (shape_d s e2)) (andb (isS (shape_d s e1)) (isS (shape_p s K2)))) | Ask _ => true end.
Proof.
  destruct c as [d p|e1 K1 e2 K2|Q]; [| | reflexivity]; cbn [okc].
  - destruct (shape_d s d); [destruct (shape_p s p) |]; reflexivity.
  - destruct (shape_p s K1); [destruct (shape_d s e2); [destruct (shape_d s e1); [destruct (shape_p s K2) |] |] |]; reflexivity.
Qed.
Lemma okc_round s c : okc (round_shape s) c = okc s c.
Proof.
  rewrite !okc_isS. destruct c as [d p|e1 K1 e2 K2|Q]; [| | reflexivity]; rewrite <- ?(isS_iff _ _ (shape_d_defined s _)), <- ?(isS_iff _ _ (shape_p_defined s _)); reflexivity.
Qed.
Lemma ops_round s : shape_ops (round_shape s) = shape_ops s.
Proof. destruct s; reflexivity. Qed.
Definition all_ok (s : lshape) (cs : list lcall) : bool := forallb (okc s) cs.
Lemma forallb_map_id {A} (f : A -> bool) l : forallb (fun b => b) (map f l) = forallb f l.
Proof. induction l as [|a l IH]; [reflexivity |]. cbn. rewrite IH. reflexivity. Qed.
Lemma ok_reorder s cs : all_ok s cs = andb (all_ok s (map AS (slips_of cs))) (all_ok s (map AT (twins_of cs))).
Proof.
  unfold all_ok. induction cs as [|c cs IH]; [reflexivity |]. change (c :: cs) with ([c] ++ cs). rewrite slips_app, twins_app, !map_app, !forallb_app, IH.
  destruct c as [d p|e1 K1 e2 K2|Q]; cbn [slips_of twins_of flat_map app map forallb]; fold (slips_of cs) (twins_of cs).
  - change (AS (d, p)) with (AddSlip d p). destruct (okc s (AddSlip d p)); reflexivity.
  - change (AT (e1, K1, e2, K2)) with (AddTwin e1 K1 e2 K2). destruct (okc s (AddTwin e1 K1 e2 K2)); [reflexivity |]. destruct (forallb (okc s) (map AS (slips_of cs))); reflexivity.
  - reflexivity.
Qed.
(** the reloaded object: the recorded systems, for general and cubic lattices without the twins *)
Definition kept (s : lshape) (l : list twin) : list twin := match s with LHCP _ _ => l | _ => [] end.
Lemma reload_form hash p ops cs o0 : shape_ops (lp_shape p) = Some ops -> lat_new p = Some o0 -> named (lp_shape p) -> (forall x, In x (given p ++ cs) -> small_call x) ->
  let o := fst (lat_calls hash ops cs o0) in
  let todo := map AS (slips_of (given p ++ cs)) ++ map AT (kept (lp_shape p) (twins_of (given p ++ cs))) in
  exists q, lp_shape q = round_shape (lp_shape p) /\ given q = todo /\ lat_load (lat_save o) = (if all_ok (lp_shape p) todo then Some (fst (lat_calls hash ops todo (mkLO q lattice0 [] []))) else None) /\ lo_slip o = slips_of (given p ++ cs) /\ lo_twin o = twins_of (given p ++ cs).
Proof.
  intros E H N Sm o todo. destruct (history hash p ops cs o0 E H) as (R & G & B & C & A & A0). cbv zeta in R, B, C, A. fold o in R. rewrite <- R in B, C, A.
  rewrite reload_is; [| rewrite A; exact N | rewrite B; intros a b; apply in_slips; exact Sm | rewrite C; intros a b c d; apply in_twins; exact Sm].
  rewrite A, B, C. set (q := mkLP _ _ _). exists q. split; [reflexivity |].
  assert (Gq : given q = todo) by (unfold given, todo, q; cbn [lp_slip lp_twin of_slip mb_slip]; f_equal; f_equal; destruct (lp_shape p); reflexivity).
  split; [exact Gq |]. split; [| split; reflexivity].
  rewrite (new_calls hash). change (lp_shape q) with (round_shape (lp_shape p)). rewrite ops_round, E. cbv zeta.
  destruct (calls_facts hash ops (given q) (mkLO q lattice0 [] [])) as (_ & _ & _ & D1). cbv zeta in D1. rewrite D1, forallb_map_id. cbn [lo_par]. change (lp_shape q) with (round_shape (lp_shape p)). rewrite Gq.
  replace (forallb (okc (round_shape (lp_shape p))) todo) with (all_ok (lp_shape p) todo); [reflexivity |].
  unfold all_ok. clear. induction todo as [|x l IH]; [reflexivity |]. cbn [forallb]. rewrite IH, okc_round. reflexivity.
Qed.
Lemma calls_ok hash p ops cs o0 : shape_ops (lp_shape p) = Some ops -> lat_new p = Some o0 ->
  all_ok (lp_shape p) (given p ++ cs) = forallb (fun b => b) (snd (lat_calls hash ops cs o0)).
Proof.
  intros E H. destruct (history hash p ops cs o0 E H) as (_ & G & _ & _ & _ & A0).
  destruct (calls_facts hash ops cs o0) as (_ & _ & _ & D2). cbv zeta in D2. destruct (calls_facts hash ops (given p) (mkLO p lattice0 [] [])) as (_ & _ & _ & D3). cbv zeta in D3.
  unfold all_ok. rewrite forallb_app. rewrite D2, forallb_map_id, A0. rewrite D3, forallb_map_id in G. cbn [lo_par] in G. rewrite G. reflexivity.
Qed.
Lemma kept_ok s cs : all_ok s cs = true -> all_ok s (map AS (slips_of cs) ++ map AT (kept s (twins_of cs))) = true.
Proof.
  intros H. rewrite ok_reorder in H. apply andb_prop in H. destruct H as [H K]. unfold all_ok in *. rewrite forallb_app, H. destruct s; cbn [kept]; [reflexivity | reflexivity | exact K].
Qed.
(** C93: reload *)
Lemma reload_systems hash p ops cs o0 : shape_ops (lp_shape p) = Some ops -> lat_new p = Some o0 -> named (lp_shape p) ->
  (forall x, In x cs -> small_call x) -> (forall x, In x (map AS (mb_slip (lp_slip p)) ++ map AT (mb_twin (lp_twin p))) -> small_call x) ->
  let o := fst (lat_calls hash ops cs o0) in forallb (fun b => b) (snd (lat_calls hash ops cs o0)) = true ->
  exists o', lat_load (lat_save o) = Some o' /\ lp_shape (lo_par o') = round_shape (lp_shape p) /\ lo_slip o = mb_slip (lp_slip p) ++ slips_of cs /\ lo_twin o = mb_twin (lp_twin p) ++ twins_of cs /\ lo_slip o' = lo_slip o /\ lo_twin o' = match lp_shape p with LHCP _ _ => lo_twin o | _ => [] end.
Proof.
  intros E H N S1 S2 o Fl. assert (Sm : forall x, In x (given p ++ cs) -> small_call x) by (intros x I; apply in_app_or in I; destruct I as [I|I]; [apply S2 | apply S1]; exact I).
  destruct (reload_form hash p ops cs o0 E H N Sm) as (q & Sq & Gq & L & B & C). fold o in L, B, C. cbv zeta in L, Gq.
  rewrite kept_ok in L by (rewrite (calls_ok hash p ops cs o0 E H); exact Fl). eexists. split; [exact L |].
  match goal with |- context [lat_calls hash ops ?t ?x] => destruct (calls_facts hash ops t x) as (A1 & B1 & C1 & _) end. cbv zeta in A1, B1, C1.
  rewrite A1, B1, C1. cbn [lo_par lo_slip lo_twin app]. rewrite B, C. rewrite !slips_app, !twins_app, !slips_AS, !slips_AT, !twins_AS, !twins_AT, !given_slips, !given_twins, !app_nil_r. cbn [app]. split; [exact Sq |]. split; [reflexivity |]. split; [reflexivity |]. split; [reflexivity |]. unfold kept. destruct (lp_shape p); reflexivity.
Qed.
(** *** the same systems, numbered the same *)
Lemma same_refl L : same_systems L L.
Proof. repeat split. Qed.
Lemma same_trans a b c : same_systems a b -> same_systems b c -> same_systems a c.
Proof. intros (A & B & C & D) (A' & B' & C' & D'). unfold same_systems. rewrite A, B, C, D. auto. Qed.
Lemma add_group_same L L' G : same_systems L L' -> same_systems (add_group L G) (add_group L' G).
Proof. intros (A & B & C & D). unfold add_group. destruct (g_sys G); [repeat split; assumption |]. cbv zeta. unfold same_systems. cbn [la_groups la_offsets la_normals la_nmap]. rewrite A, B, C, D. repeat split. Qed.
Lemma call_same hash ops c o o2 : lp_shape (lo_par o) = lp_shape (lo_par o2) -> same_systems (lo_lat o) (lo_lat o2) -> same_systems (lo_lat (fst (lat_call hash ops c o))) (lo_lat (fst (lat_call hash ops c o2))).
Proof.
  intros E H. destruct c as [d p|e1 K1 e2 K2|Q]; cbn [lat_call]; unfold lo_add_slip, lo_add_twin, add_slip_system, add_twin_system; cbn [lo_par lo_lat]; rewrite <- ?E.
  - destruct (shape_d _ d); [destruct (shape_p _ p) |]; cbn [fst lo_lat]; try exact H. apply add_group_same. exact H.
  - destruct (shape_p _ K1); [destruct (shape_d _ e2); [destruct (shape_d _ e1); [destruct (shape_p _ K2) |] |] |]; cbn [fst lo_lat]; try exact H. apply add_group_same. exact H.
  - cbn [fst lo_lat]. assert (K : forall L, same_systems (cache_rot hash L Q) L) by (intros L; unfold cache_rot; destruct (la_cache L) as [k|]; [destruct (Z.eqb _ _) |]; repeat split).
    apply (same_trans _ (lo_lat o)); [apply K |]. apply (same_trans _ (lo_lat o2)); [exact H |]. destruct (K (lo_lat o2)) as (A & B & C & D). unfold same_systems. auto.
Qed.
Lemma ask_same hash ops Q o : same_systems (lo_lat (fst (lat_call hash ops (Ask Q) o))) (lo_lat o).
Proof. cbn [lat_call fst lo_lat]. unfold cache_rot. destruct (la_cache (lo_lat o)) as [k|]; [destruct (Z.eqb _ _) |]; repeat split. Qed.
Definition adds (c : lcall) : bool := match c with Ask _ => false | _ => true end.
Lemma calls_strip hash ops cs : forall o o2, lp_shape (lo_par o) = lp_shape (lo_par o2) -> same_systems (lo_lat o) (lo_lat o2) ->
  same_systems (lo_lat (fst (lat_calls hash ops cs o))) (lo_lat (fst (lat_calls hash ops (filter adds cs) o2))).
Proof.
  induction cs as [|c cs IH]; intros o o2 E H; [exact H |]. cbn [filter]. destruct (adds c) eqn:A; cbn [lat_calls]; cbv zeta; cbn [fst].
  - apply IH; [rewrite !call_par; exact E | apply call_same; assumption].
  - destruct c; try discriminate. apply IH; [rewrite call_par; exact E |]. apply (same_trans _ (lo_lat o)); [apply ask_same | exact H].
Qed.
Lemma no_slip_strip m : (forall d p, ~ In (AddSlip d p) m) -> slips_of m = [] /\ filter adds m = map AT (twins_of m).
Proof.
  induction m as [|c m IH]; intros H; [split; reflexivity |]. destruct IH as [A B]; [intros d p I; apply (H d p); right; exact I |].
  destruct c as [d p|e1 K1 e2 K2|Q]; [exfalso; apply (H d p); left; reflexivity | |]; cbn [slips_of twins_of flat_map filter adds app map]; fold (slips_of m) (twins_of m); rewrite ?A, ?B; split; reflexivity.
Qed.
Lemma first_strip cs : slips_first cs -> filter adds cs = map AS (slips_of cs) ++ map AT (twins_of cs).
Proof.
  induction cs as [|c cs IH]; intros H; [reflexivity |].
  assert (H' : slips_first cs) by (intros l m d p e1 K1 e2 K2 E; apply (H (c :: l) m d p e1 K1 e2 K2); rewrite E; reflexivity).
  destruct c as [d p|e1 K1 e2 K2|Q]; cbn [filter adds slips_of twins_of flat_map app map]; fold (slips_of cs) (twins_of cs).
  - f_equal. apply IH. exact H'.
  - destruct (no_slip_strip cs) as [A B]; [intros d p; apply (H [] cs d p e1 K1 e2 K2); reflexivity |]. rewrite A, B. reflexivity.
  - apply IH. exact H'.
Qed.
Lemma round_short_shape s : short_shape s -> round_shape s = s.
Proof.
  assert (K : forall x, six_digits x -> round6 x = x) by (intros x Hx; pose proof (round_short (Obj "" [(""%string, VDouble x)]) (conj Hx I)) as E; cbn in E; congruence).
  assert (M : forall l, List.Forall six_digits l -> map round6 l = l) by (induction 1 as [|x l Hx Hl IH]; [reflexivity | cbn; rewrite IH, (K x Hx); reflexivity]).
  destruct s as [a1 a2 a3 g|a|a c]; cbn; intros H.
  - destruct H as (A & B & C & _). rewrite !M by assumption. reflexivity.
  - rewrite K by assumption. reflexivity.
  - destruct H as [A B]. rewrite !K by assumption. reflexivity.
Qed.
Lemma reload_same hash p ops cs o0 : shape_ops (lp_shape p) = Some ops -> lat_new p = Some o0 -> short_shape (lp_shape p) ->
  (forall x, In x cs -> small_call x) -> (forall x, In x (map AS (mb_slip (lp_slip p)) ++ map AT (mb_twin (lp_twin p))) -> small_call x) ->
  slips_first (map AS (mb_slip (lp_slip p)) ++ map AT (mb_twin (lp_twin p)) ++ cs) ->
  match lp_shape p with LHCP _ _ => True | _ => mb_twin (lp_twin p) ++ twins_of cs = [] end ->
  let o := fst (lat_calls hash ops cs o0) in forallb (fun b => b) (snd (lat_calls hash ops cs o0)) = true ->
  exists o', lat_load (lat_save o) = Some o' /\ lp_shape (lo_par o') = lp_shape p /\ same_systems (lo_lat o') (lo_lat o) /\ lo_slip o' = lo_slip o /\ lo_twin o' = lo_twin o.
Proof.
  intros E H Sh S1 S2 Fi Tw o Fl. assert (N : named (lp_shape p)) by (destruct (lp_shape p); cbn in *; tauto).
  assert (Sm : forall x, In x (given p ++ cs) -> small_call x) by (intros x J; apply in_app_or in J; destruct J as [J|J]; [apply S2 | apply S1]; exact J).
  destruct (reload_form hash p ops cs o0 E H N Sm) as (q & Sq & Gq & L & B & C). fold o in L, B, C. cbv zeta in L, Gq.
  rewrite kept_ok in L by (rewrite (calls_ok hash p ops cs o0 E H); exact Fl). eexists. split; [exact L |].
  assert (K : kept (lp_shape p) (twins_of (given p ++ cs)) = twins_of (given p ++ cs)) by (rewrite twins_app, given_twins; unfold kept; destruct (lp_shape p); [symmetry; exact Tw | symmetry; exact Tw | reflexivity]).
  rewrite K in *. rewrite app_assoc in Fi. fold (given p) in Fi. rewrite <- (first_strip _ Fi) in *.
  destruct (history hash p ops cs o0 E H) as (R & _ & _ & _ & A & _). cbv zeta in R, A. fold o in R.
  match goal with |- context [lat_calls hash ops ?t ?x] => destruct (calls_facts hash ops t x) as (A1 & B1 & C1 & _) end. cbv zeta in A1, B1, C1. rewrite A1, B1, C1. cbn [lo_par lo_slip lo_twin app].
  rewrite Sq, (round_short_shape _ Sh). split; [reflexivity |]. rewrite R at 1. split.
  - destruct (calls_strip hash ops (given p ++ cs) (mkLO p lattice0 [] []) (mkLO q lattice0 [] [])) as (U & V & W & X); [cbn [lo_par]; rewrite Sq, (round_short_shape _ Sh); reflexivity | apply same_refl |]. unfold same_systems. auto.
  - rewrite B, C, (first_strip _ Fi). rewrite !slips_app, !twins_app, !slips_AS, !slips_AT, !twins_AS, !twins_AT, !app_nil_r. cbn [app]. split; reflexivity.
Qed.
(** *** twins *)
Lemma add_group_in L G H : In H (la_groups (add_group L G)) -> In H (la_groups L) \/ H = G.
Proof. unfold add_group. destruct (g_sys G); [tauto |]. cbv zeta. cbn [la_groups]. intros I. apply in_app_or in I. destruct I as [I|[I|[]]]; [left; exact I | right; symmetry; exact I]. Qed.
Lemma groups_AS hash ops l : forall o, (forall G, In G (la_groups (lo_lat o)) -> g_twin G = false) -> forall G, In G (la_groups (lo_lat (fst (lat_calls hash ops (map AS l) o)))) -> g_twin G = false.
Proof.
  induction l as [|[d p] l IH]; intros o H; [exact H |]. cbn [map lat_calls]. cbv zeta. cbn [fst]. apply IH. intros G. change (lat_call hash ops (AS (d, p)) o) with (lo_add_slip ops o d p). unfold lo_add_slip, add_slip_system. cbn [lo_par lo_lat].
  destruct (shape_d _ d); [destruct (shape_p _ p) |]; cbn [fst lo_lat]; try apply H. intros I. apply add_group_in in I. destruct I as [I | ->]; [apply H; exact I | reflexivity].
Qed.
Definition slip_then_twin (L : lattice) : Prop := forall l G m G', la_groups L = l ++ G :: m -> g_twin G = true -> In G' m -> g_twin G' = true.
Lemma groups_AT hash ops l : forall o, slip_then_twin (lo_lat o) -> slip_then_twin (lo_lat (fst (lat_calls hash ops (map AT l) o))).
Proof.
  induction l as [|[[[d p] e] q] l IH]; intros o H; [exact H |]. cbn [map lat_calls]. cbv zeta. cbn [fst]. apply IH. change (lat_call hash ops (AT (d, p, e, q)) o) with (lo_add_twin ops o d p e q). unfold lo_add_twin, add_twin_system. cbn [lo_par lo_lat].
  destruct (shape_p _ p); [destruct (shape_d _ e); [destruct (shape_d _ d); [destruct (shape_p _ q) |] |] |]; cbn [fst lo_lat]; try exact H.
  cbv zeta. unfold add_group. destruct (g_sys _) eqn:Es; [exact H |]. cbv zeta. intros a G m G'. cbn [la_groups]. intros Eq Ht I.
  destruct (exists_last (l := m)) as (m' & x & ->); [intros ->; destruct I |].
  replace (a ++ G :: m' ++ [x]) with ((a ++ G :: m') ++ [x]) in Eq by (rewrite <- app_assoc; reflexivity). apply app_inj_tail in Eq. destruct Eq as [Eq Ex]. apply in_app_or in I. destruct I as [I|[<-|[]]].
  - exact (H a G m' G' Eq Ht I).
  - rewrite <- Ex. reflexivity.
Qed.
Lemma slip_only_order L : (forall G, In G (la_groups L) -> g_twin G = false) -> slip_then_twin L.
Proof. intros H l G m G' E Ht I. exfalso. rewrite (H G) in Ht; [discriminate |]. rewrite E. apply in_or_app. right. left. reflexivity. Qed.
Lemma reload_twins_lost hash p ops cs o0 o' : match lp_shape p with LHCP _ _ => False | _ => True end -> shape_ops (lp_shape p) = Some ops -> lat_new p = Some o0 -> named (lp_shape p) ->
  (forall x, In x cs -> small_call x) -> (forall x, In x (map AS (mb_slip (lp_slip p)) ++ map AT (mb_twin (lp_twin p))) -> small_call x) ->
  lat_load (lat_save (fst (lat_calls hash ops cs o0))) = Some o' -> lo_twin o' = [] /\ forall G, In G (la_groups (lo_lat o')) -> g_twin G = false.
Proof.
  intros K E H N S1 S2 L0. assert (Sm : forall x, In x (given p ++ cs) -> small_call x) by (intros x J; apply in_app_or in J; destruct J as [J|J]; [apply S2 | apply S1]; exact J).
  destruct (reload_form hash p ops cs o0 E H N Sm) as (q & Sq & Gq & L & _). cbv zeta in L. rewrite L in L0. destruct (all_ok _ _); [|discriminate]. injection L0 as <-.
  assert (Kt : forall l, kept (lp_shape p) l = []) by (intros l; destruct (lp_shape p); [reflexivity | reflexivity | contradiction]). rewrite Kt. cbn [map]. rewrite app_nil_r. split.
  - destruct (calls_facts hash ops (map AS (slips_of (given p ++ cs))) (mkLO q lattice0 [] [])) as (_ & _ & C1 & _). cbv zeta in C1. rewrite C1, twins_AS. reflexivity.
  - apply groups_AS. intros G [].
Qed.
Lemma reload_order hash p ops cs o0 o' : shape_ops (lp_shape p) = Some ops -> lat_new p = Some o0 -> named (lp_shape p) ->
  (forall x, In x cs -> small_call x) -> (forall x, In x (map AS (mb_slip (lp_slip p)) ++ map AT (mb_twin (lp_twin p))) -> small_call x) ->
  lat_load (lat_save (fst (lat_calls hash ops cs o0))) = Some o' -> forall l G m G', la_groups (lo_lat o') = l ++ G :: m -> g_twin G = true -> In G' m -> g_twin G' = true.
Proof.
  intros E H N S1 S2 L0. assert (Sm : forall x, In x (given p ++ cs) -> small_call x) by (intros x J; apply in_app_or in J; destruct J as [J|J]; [apply S2 | apply S1]; exact J).
  destruct (reload_form hash p ops cs o0 E H N Sm) as (q & Sq & Gq & L & _). cbv zeta in L. rewrite L in L0. destruct (all_ok _ _); [|discriminate]. injection L0 as <-.
  change (slip_then_twin (lo_lat (fst (lat_calls hash ops (map AS (slips_of (given p ++ cs)) ++ map AT (kept (lp_shape p) (twins_of (given p ++ cs)))) (mkLO q lattice0 [] []))))).
  rewrite calls_app. cbn [fst]. apply groups_AT. apply slip_only_order. apply groups_AS. intros G [].
Qed.
(** an addition that failed is still recorded: the saved lattice cannot be read *)
Lemma failed_unreadable hash p ops cs o0 : match lp_shape p with LHCP _ _ => True | _ => twins_of cs = [] end -> shape_ops (lp_shape p) = Some ops -> lat_new p = Some o0 -> named (lp_shape p) ->
  (forall x, In x cs -> small_call x) -> (forall x, In x (map AS (mb_slip (lp_slip p)) ++ map AT (mb_twin (lp_twin p))) -> small_call x) ->
  In false (snd (lat_calls hash ops cs o0)) -> lat_load (lat_save (fst (lat_calls hash ops cs o0))) = None.
Proof.
  intros T E H N S1 S2 F. assert (Sm : forall x, In x (given p ++ cs) -> small_call x) by (intros x J; apply in_app_or in J; destruct J as [J|J]; [apply S2 | apply S1]; exact J).
  destruct (reload_form hash p ops cs o0 E H N Sm) as (q & Sq & Gq & L & _). cbv zeta in L. rewrite L. clear L.
  assert (K : all_ok (lp_shape p) (given p ++ cs) = false).
  { rewrite (calls_ok hash p ops cs o0 E H). destruct (forallb _ _) eqn:X; [|reflexivity]. rewrite forallb_forall in X. specialize (X false F). discriminate. }
  assert (Z : all_ok (lp_shape p) (map AS (slips_of (given p ++ cs)) ++ map AT (kept (lp_shape p) (twins_of (given p ++ cs)))) = false); [|rewrite Z; reflexivity].
  assert (G : all_ok (lp_shape p) (given p) = true).
  { pose proof (calls_ok hash p ops [] o0 E H) as X. rewrite app_nil_r in X. exact X. }
  rewrite ok_reorder in K. destruct (all_ok _ (map AS (slips_of (given p ++ cs)))) eqn:Y; [| unfold all_ok in *; rewrite forallb_app, Y; reflexivity]. cbn [andb] in K.
  rewrite ok_reorder in G. unfold all_ok in *. rewrite forallb_app, Y. cbn [andb].
  destruct (lp_shape p) eqn:Es; cbn [kept]; [| | exact K]; exfalso; rewrite twins_app, T, app_nil_r in K; rewrite K, Bool.andb_comm in G; discriminate.
Qed.
(** *** twins given to the constructor of a cubic or general lattice *)
Lemma given_ignored s S l l' : match s with LHCP _ _ => False | _ => True end -> match lat_new (mkLP s S (of_slip l)), lat_new (mkLP s S (of_slip l')) with
  | Some o, Some o' => lo_lat o = lo_lat o' /\ lo_twin o = [] /\ forall G, In G (la_groups (lo_lat o)) -> g_twin G = false
  | None, None => True | _, _ => False end.
Proof.
  intros _. rewrite !(new_calls (fun _ => 0%Z)). cbn [lp_shape]. destruct (shape_ops s) as [ops|]; [|exact I]. cbv zeta. unfold given. cbn [lp_slip lp_twin of_slip mb_slip mb_twin map]. rewrite app_nil_r.
  set (h := fun _ : quat => 0%Z). set (o1 := mkLO _ _ _ _). set (o2 := mkLO (mkLP s S (of_slip l')) _ _ _).
  destruct (calls_facts h ops (map AS (mb_slip S)) o1) as (_ & _ & C1 & D1). destruct (calls_facts h ops (map AS (mb_slip S)) o2) as (_ & _ & C2 & D2). cbv zeta in C1, D1, C2, D2. rewrite D1, D2. cbn [lo_par o1 o2 lp_shape].
  destruct (forallb _ _); [| exact I]. split; [| split].
  - clear. assert (K : forall l a b, lp_shape (lo_par a) = lp_shape (lo_par b) -> lo_lat a = lo_lat b -> lo_lat (fst (lat_calls h ops (map AS l) a)) = lo_lat (fst (lat_calls h ops (map AS l) b))); [| apply K; reflexivity].
    clear. induction l as [|[d p] l IH]; intros a b E F; [exact F |]. cbn [map lat_calls]. cbv zeta. cbn [fst]. apply IH; [rewrite !call_par; exact E |].
    change (lat_call h ops (AS (d, p))) with (fun o => lo_add_slip ops o d p). cbv beta. unfold lo_add_slip. cbn [lo_par lo_lat]. rewrite <- E, F. destruct (add_slip_system _ _ _ _ _ _); reflexivity.
  - rewrite C1, twins_AS. reflexivity.
  - apply groups_AS. intros G [].
Qed.
Lemma python_refused s v vs a b c d : match s with LHCP _ _ => False | _ => True end -> In v vs -> a_twin v (a, b, c, d) -> cast (twin_type s) (PySeq vs) = None.
Proof.
  intros K I T. destruct (cast (twin_type s) (PySeq vs)) as [x|] eqn:E; [|reflexivity]. exfalso. destruct s; try contradiction; cbn [twin_type] in E; apply cast_means in E; inversion E; subst; destruct H as (ws & Ew & H); assert (ws = vs) by congruence; subst ws;
    clear - I T H; induction H as [|w e f g P Q IH]; try (destruct I; fail); (destruct I as [->|I]; [| auto]); destruct T as (x1 & x2 & x3 & x4 & -> & _); destruct P as (y1 & y2 & Ey & _); discriminate.
Qed.

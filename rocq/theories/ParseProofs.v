(** Proofs about saving and loading objects. *)
From Coq Require Import String Ascii ZArith.
From Verif Require Import Base.
From Verif Require Import HistModel.
From Verif Require Import TextModel.
From Verif Require Import TextProofs.
From Verif Require Import ParseModel.
From Verif Require Import ParseSpec.

(** ** Induction over objects *)
Fixpoint object_ind2 (P : object -> Prop) (Q : pval -> Prop)
  (HP : forall t ps, List.Forall (fun kv => Q (snd kv)) ps -> P (Obj t ps))
  (Hd : forall x, Q (VDouble x)) (Hi : forall z, Q (VInt z)) (Hb : forall b, Q (VBool b))
  (Hvd : forall l, Q (VVecDouble l)) (Ho : forall o, P o -> Q (VObject o))
  (Hvo : forall l, List.Forall P l -> Q (VVecObject l)) (Hs : forall s, Q (VString s))
  (Hsl : forall l, Q (VSlip l)) (Hsz : forall z, Q (VSize z)) (Hvs : forall l, Q (VVecSize l))
  (Htw : forall l, Q (VTwin l)) (o : object) {struct o} : P o :=
  match o with
  | Obj t ps =>
    HP t ps ((fix go (l : list (string * pval)) : List.Forall (fun kv => Q (snd kv)) l :=
      match l with
      | [] => Forall_nil _
      | (k, v) :: r => Forall_cons (k, v)
          (match v as v' return Q v' with
           | VDouble x => Hd x | VInt z => Hi z | VBool b => Hb b | VVecDouble l' => Hvd l'
           | VObject o' => Ho o' (object_ind2 P Q HP Hd Hi Hb Hvd Ho Hvo Hs Hsl Hsz Hvs Htw o')
           | VVecObject l' => Hvo l' ((fix vec (l : list object) : List.Forall P l :=
               match l with
               | [] => Forall_nil _
               | o' :: q => Forall_cons o' (object_ind2 P Q HP Hd Hi Hb Hvd Ho Hvo Hs Hsl Hsz Hvs Htw o') (vec q)
               end) l')
           | VString s => Hs s | VSlip l' => Hsl l' | VSize z => Hsz z | VVecSize l' => Hvs l' | VTwin l' => Htw l'
           end) (go r)
      end) ps)
  end.

(** ** Standalone versions of the loops *)
Fixpoint param_loop (F : factory) (nm : string) (cs : list node) (p : pset) : pres pset :=
  match cs with
  | [] => POk p
  | c :: r =>
    if String.eqb (node_name c) "text" then param_loop F nm r p
    else if is_parameter (node_name c) p then
      pbind (load_val F (get_object_type (node_name c) p) c) (fun v =>
      pbind (assign_parameter (node_name c) v p) (param_loop F nm r))
    else PErr (UnknownParameterXML nm (node_name c))
  end.
Lemma get_object_unfold : forall F nm at_ ch, get_type_of_node (Elem nm at_ ch) <> "none"%string ->
  get_object F (Elem nm at_ ch) =
  pbind (provide_parameters F (get_type_of_node (Elem nm at_ ch))) (fun p0 =>
  pbind (param_loop F nm ch p0) (create F)).
Proof.
  intros F nm at_ ch H. cbn [get_object].
  destruct (String.eqb_spec (get_type_of_node (Elem nm at_ ch)) "none") as [E|E]; [contradiction|].
  destruct (provide_parameters F (get_type_of_node (Elem nm at_ ch))) as [p0|e]; [|reflexivity].
  cbn [pbind].
  match goal with |- pbind (?f ch p0) _ = _ => assert (E2 : forall cs p, f cs p = param_loop F nm cs p) end.
  { induction cs as [|c r IH]; intros p; [reflexivity|]. cbn [param_loop].
    destruct (String.eqb (node_name c) "text"); [apply IH|].
    destruct (is_parameter (node_name c) p); [|reflexivity].
    assert (EV : forall xs, (fix vec (xs : list node) {struct xs} : pres (list object) :=
        match xs with
        | [] => POk []
        | x :: q =>
          if String.eqb (node_name x) "text" then vec q
          else pbind (get_object F x) (fun o => pbind (vec q) (fun os => POk (o :: os)))
        end) xs = vec_loop F xs).
    { induction xs as [|x q IHx]; [reflexivity|]. cbn [vec_loop]. rewrite <- IHx. reflexivity. }
    destruct (get_object_type (node_name c) p); cbn [load_val];
      match goal with |- pbind ?a ?f = pbind ?b ?g =>
        assert (EA : a = b); [try reflexivity | try rewrite EA; destruct b; [|reflexivity]; cbn [pbind];
          destruct (assign_parameter (node_name c) _ p); [apply IH | reflexivity]] end.
    f_equal. destruct c as [cn ca [|[xn xa xc|xs] [|y cc]]|s]; try reflexivity;
      first [apply (EV [Elem xn xa xc]) | apply (EV (Elem xn xa xc :: y :: cc)) | apply (EV (Data xs :: y :: cc))]. }
  rewrite E2. reflexivity.
Qed.

(** ** Strings *)
Lemma dropwhile_app : forall f a c b, f c = false -> dropwhile f (a ++ c :: b) = dropwhile f a ++ c :: b.
Proof.
  induction a as [|x a IH]; intros c b H; cbn [app dropwhile].
  - rewrite H. reflexivity.
  - destruct (f x); [apply IH; assumption | reflexivity].
Qed.
Lemma dropwhile_decomp : forall f s, exists a, s = a ++ dropwhile f s /\ List.Forall (fun c => f c = true) a.
Proof.
  induction s as [|c s [a [E H]]]; [exists []; split; [reflexivity | constructor]|]. cbn [dropwhile].
  destruct (f c) eqn:Fc.
  - exists (c :: a). split; [simpl; congruence | constructor; assumption].
  - exists []. split; [reflexivity | constructor].
Qed.
Definition rstrip (s : text) : text := rev (dropwhile isspace (rev s)).
Lemma rstrip_decomp : forall s, exists b, s = rstrip s ++ b /\ List.Forall (fun c => isspace c = true) b.
Proof.
  intros s. unfold rstrip. destruct (dropwhile_decomp isspace (rev s)) as [a [E H]]. exists (rev a).
  split.
  - rewrite <- rev_app_distr, <- E, rev_involutive. reflexivity.
  - apply Forall_rev. assumption.
Qed.
Lemma split_trail : forall s cur b, List.Forall (fun c => isspace c = true) b -> split_ws cur (s ++ b) = split_ws cur s.
Proof.
  induction s as [|c s IH]; intros cur b H; cbn [app].
  - destruct b as [|x b]; [reflexivity|]. apply Forall_cons_iff in H. destruct H as [Hx Hb]. cbn [split_ws].
    rewrite Hx, split_spaces by assumption. destruct cur; reflexivity.
  - cbn [split_ws]. destruct (isspace c); [destruct cur; rewrite IH by assumption; reflexivity | apply IH; assumption].
Qed.
Lemma split_lead : forall a s, List.Forall (fun c => isspace c = true) a -> split_ws [] (a ++ s) = split_ws [] s.
Proof.
  induction a as [|c a IH]; intros s H; [reflexivity|]. apply Forall_cons_iff in H. destruct H as [Hc Ha].
  cbn [app split_ws]. rewrite Hc. apply IH. assumption.
Qed.
Lemma split_lstrip : forall s, split_string (dropwhile isspace s) = split_string s.
Proof.
  intros s. destruct (dropwhile_decomp isspace s) as [a [E H]]. unfold split_string. rewrite E at 2.
  rewrite split_lead by assumption. reflexivity.
Qed.
Lemma split_rstrip : forall s, split_string (rstrip s) = split_string s.
Proof.
  intros s. destruct (rstrip_decomp s) as [b [E H]]. unfold split_string. rewrite E at 2.
  rewrite split_trail by assumption. reflexivity.
Qed.
Lemma split_strip : forall s, split_string (strip s) = split_string s.
Proof. intros s. change (strip s) with (rstrip (dropwhile isspace s)). rewrite split_rstrip, split_lstrip. reflexivity. Qed.
Lemma strip_semi : forall A B, strip (A ++ c_semi :: B) = dropwhile isspace A ++ c_semi :: rstrip B.
Proof.
  intros A B. unfold strip, rstrip. rewrite dropwhile_app by reflexivity.
  rewrite rev_app_distr. cbn [rev]. rewrite <- app_assoc. cbn [app].
  rewrite dropwhile_app by reflexivity. rewrite rev_app_distr. cbn [rev]. rewrite rev_involutive, <- app_assoc. reflexivity.
Qed.
Lemma rstrip_semi : forall A B, rstrip (A ++ c_semi :: B) = A ++ c_semi :: rstrip B.
Proof.
  intros A B. unfold rstrip. rewrite rev_app_distr. cbn [rev]. rewrite <- app_assoc. cbn [app].
  rewrite dropwhile_app by reflexivity. rewrite rev_app_distr. cbn [rev]. rewrite rev_involutive, <- app_assoc. reflexivity.
Qed.
(** no semicolon / comma *)
Definition plain (s : text) : Prop := List.Forall (fun c => ceq c c_semi = false /\ ceq c c_comma = false) s.
Lemma plain_app : forall a b, plain a -> plain b -> plain (a ++ b).
Proof. intros. apply Forall_app. auto. Qed.
Lemma plain_suffix : forall a b, plain (a ++ b) -> plain a /\ plain b.
Proof. intros a b H. apply Forall_app in H. exact H. Qed.
Lemma plain_int : forall z, plain (show_int z).
Proof.
  assert (D : forall ds, List.Forall dig ds -> plain (map dchar ds)).
  { intros ds H. apply Forall_map. revert H. apply Forall_impl. intros d Hd.
    split; [apply ceq_dchar_hi; [assumption | lia] | apply ceq_dchar; [assumption | lia]]. }
  intros z. unfold show_int. destruct (Z.ltb_spec z 0).
  - constructor; [split; reflexivity|]. apply D. apply digits_ok. lia.
  - apply D. apply digits_ok. lia.
Qed.
Lemma plain_ints : forall l, plain (show_ints l).
Proof.
  induction l as [|z r IH]; [constructor|]. unfold show_ints in *. cbn [flat_map].
  apply plain_app; [|exact IH]. apply plain_app; [apply plain_int|]. constructor; [split; reflexivity | constructor].
Qed.
Lemma plain_lstrip : forall s, plain s -> plain (dropwhile isspace s).
Proof. intros s H. destruct (dropwhile_decomp isspace s) as [a [E _]]. rewrite E in H. apply plain_suffix in H. tauto. Qed.
Lemma find_plain : forall s t, plain s -> find_char c_semi (s ++ c_semi :: t) = Some (length s).
Proof.
  induction s as [|c s IH]; intros t H; cbn [app find_char length].
  - reflexivity.
  - apply Forall_cons_iff in H. destruct H as [[Hc _] Hs]. rewrite Hc, IH by assumption. reflexivity.
Qed.
Lemma skipn_prefix : forall A (p q : list A) n, n = length p -> skipn n (p ++ q) = q.
Proof. intros A p q n ->. rewrite skipn_app, skipn_all, Nat.sub_diag. reflexivity. Qed.
Lemma firstn_prefix : forall A (p q : list A) n, n = length p -> firstn n (p ++ q) = p.
Proof. intros A p q n ->. rewrite firstn_app, firstn_all, Nat.sub_diag. simpl. apply app_nil_r. Qed.
Lemma read_ints : forall l, List.Forall int32 l -> split_string_int (show_ints l) = Some l.
Proof.
  intros l H. unfold split_string_int. change (show_ints l) with (spaced show_int l).
  rewrite split_spaced by exact wordy_int.
  rewrite (mapM_show _ _ show_int stoi (fun z => z)); [rewrite map_id; reflexivity|].
  intros z Hz. apply stoi_show. rewrite Forall_forall in H. apply H. assumption.
Qed.
Lemma split_int_strip : forall s, split_string_int (strip s) = split_string_int s.
Proof. intros s. unfold split_string_int. rewrite split_strip. reflexivity. Qed.

Lemma read_slip_show : forall a b, List.Forall int32 a -> List.Forall int32 b ->
  read_slip (strip (show_ints a ++ [c_semi; c_space] ++ show_ints b)) = Some (a, b).
Proof.
  intros a b Ha Hb. cbn [app]. rewrite strip_semi. unfold read_slip, find_from. cbn [skipn].
  rewrite find_plain by (apply plain_lstrip; apply plain_ints). cbn [option_map Nat.add substr_to after skipn].
  rewrite Nat.sub_0_r, firstn_prefix by reflexivity.
  replace (skipn (length (dropwhile isspace (show_ints a)) + 1) (dropwhile isspace (show_ints a) ++ c_semi :: rstrip (c_space :: show_ints b)))
    with (rstrip (c_space :: show_ints b)).
  - rewrite !split_int_strip. unfold split_string_int. rewrite split_lstrip, split_rstrip.
    replace (split_string (c_space :: show_ints b)) with (split_string (show_ints b)) by reflexivity.
    fold (split_string_int (show_ints a)). fold (split_string_int (show_ints b)).
    rewrite !read_ints by assumption. reflexivity.
  - symmetry. rewrite <- (app_nil_l (rstrip _)).
    change (dropwhile isspace (show_ints a) ++ c_semi :: [] ++ rstrip (c_space :: show_ints b)) with
      (dropwhile isspace (show_ints a) ++ [c_semi] ++ rstrip (c_space :: show_ints b)).
    rewrite app_assoc. apply skipn_prefix. rewrite app_length. reflexivity.
Qed.
Lemma read_twin_show : forall a b c d, List.Forall int32 a -> List.Forall int32 b -> List.Forall int32 c -> List.Forall int32 d ->
  read_twin (strip (show_ints a ++ [c_semi] ++ show_ints b ++ [c_semi] ++ show_ints c ++ [c_semi] ++ show_ints d)) = Some (a, b, c, d).
Proof.
  intros a b c d Ha Hb Hc Hd. cbn [app]. rewrite strip_semi.
  set (A := dropwhile isspace (show_ints a)).
  assert (ER : rstrip (show_ints b ++ c_semi :: show_ints c ++ c_semi :: show_ints d) =
     show_ints b ++ c_semi :: show_ints c ++ c_semi :: rstrip (show_ints d)).
  { rewrite !rstrip_semi. reflexivity. }
  rewrite ER. clear ER.
  set (B := show_ints b). set (C := show_ints c). set (D := rstrip (show_ints d)).
  assert (PA : plain A) by (apply plain_lstrip; apply plain_ints).
  unfold read_twin.
  set (s := A ++ c_semi :: B ++ c_semi :: C ++ c_semi :: D).
  assert (N1 : find_from c_semi 0 s = Some (length A)).
  { unfold find_from, s. cbn [skipn]. rewrite find_plain by assumption. reflexivity. }
  rewrite N1. cbn [after].
  assert (S1 : skipn (length A + 1) s = B ++ c_semi :: C ++ c_semi :: D).
  { unfold s. change (A ++ c_semi :: B ++ c_semi :: C ++ c_semi :: D) with (A ++ [c_semi] ++ B ++ c_semi :: C ++ c_semi :: D).
    rewrite app_assoc. apply skipn_prefix. rewrite app_length. reflexivity. }
  assert (N2 : find_from c_semi (length A + 1) s = Some (length A + 1 + length B)%nat).
  { unfold find_from. rewrite S1, find_plain by apply plain_ints. reflexivity. }
  rewrite N2. cbn [after].
  assert (S2 : skipn (length A + 1 + length B + 1) s = C ++ c_semi :: D).
  { unfold s. change (A ++ c_semi :: B ++ c_semi :: C ++ c_semi :: D) with (A ++ [c_semi] ++ B ++ [c_semi] ++ C ++ c_semi :: D).
    rewrite !app_assoc. rewrite <- (app_assoc _ C). apply skipn_prefix. rewrite !app_length. simpl. lia. }
  assert (N3 : find_from c_semi (length A + 1 + length B + 1) s = Some (length A + 1 + length B + 1 + length C)%nat).
  { unfold find_from. rewrite S2, find_plain by apply plain_ints. reflexivity. }
  rewrite N3. cbn [after].
  assert (S3 : skipn (length A + 1 + length B + 1 + length C + 1) s = D).
  { unfold s. change (A ++ c_semi :: B ++ c_semi :: C ++ c_semi :: D) with (A ++ [c_semi] ++ B ++ [c_semi] ++ C ++ [c_semi] ++ D).
    rewrite !app_assoc. apply skipn_prefix. rewrite !app_length. simpl. lia. }
  unfold substr_to. rewrite S1, S2, S3. cbn [skipn].
  rewrite Nat.sub_0_r. unfold s. rewrite firstn_prefix by reflexivity.
  replace (length A + 1 + length B - (length A + 1))%nat with (length B) by lia.
  rewrite firstn_prefix by reflexivity.
  replace (length A + 1 + length B + 1 + length C - (length A + 1 + length B + 1))%nat with (length C) by lia.
  rewrite firstn_prefix by reflexivity.
  rewrite !split_int_strip. unfold A, D. unfold split_string_int. rewrite split_lstrip, split_rstrip.
  fold (split_string_int (show_ints a)). fold (split_string_int B). fold (split_string_int C). fold (split_string_int (show_ints d)).
  unfold B, C. rewrite !read_ints by assumption. reflexivity.
Qed.

(** comma separated groups *)
Definition nocomma (s : text) : Prop := List.Forall (fun c => ceq c c_comma = false) s.
Lemma getlines_app : forall s cur rest, nocomma s -> getlines c_comma cur (s ++ c_comma :: rest) = (rev cur ++ s) :: getlines c_comma [] rest.
Proof.
  induction s as [|c s IH]; intros cur rest H; cbn [app getlines].
  - rewrite app_nil_r. reflexivity.
  - apply Forall_cons_iff in H. destruct H as [Hc Hs]. rewrite Hc, IH by assumption. cbn [rev].
    rewrite <- app_assoc. reflexivity.
Qed.
Lemma groups_show : forall A (body : A -> text) l, (forall a, nocomma (body a)) -> (forall a, strip (body a) <> []) ->
  groups (flat_map (fun a => body a ++ [c_comma]) l) = map (fun a => strip (body a)) l.
Proof.
  intros A body l H N. unfold groups. induction l as [|a r IH]; [reflexivity|].
  cbn [flat_map map]. rewrite <- app_assoc. cbn [app]. rewrite getlines_app by apply H. cbn [rev app map filter].
  rewrite IH. specialize (N a). destruct (strip (body a)); [congruence | reflexivity].
Qed.
Lemma plain_nocomma : forall s, plain s -> nocomma s.
Proof. intros s. apply Forall_impl. tauto. Qed.

Definition slip_body (e : slip) : text := show_ints (fst e) ++ [c_semi; c_space] ++ show_ints (snd e).
Definition twin_body (e : twin) : text :=
  let '(a, b, c, d) := e in
  show_ints a ++ [c_semi] ++ show_ints b ++ [c_semi] ++ show_ints c ++ [c_semi] ++ show_ints d.
Lemma nocomma_app : forall a b, nocomma a -> nocomma b -> nocomma (a ++ b).
Proof. intros. apply Forall_app. auto. Qed.
Lemma nocomma_ints : forall l, nocomma (show_ints l).
Proof. intros. apply plain_nocomma. apply plain_ints. Qed.
Lemma slip_body_ok : forall e, nocomma (slip_body e) /\ strip (slip_body e) <> [].
Proof.
  intros [a b]. unfold slip_body. cbn [fst snd app]. split.
  - apply nocomma_app; [apply nocomma_ints|]. constructor; [reflexivity|]. constructor; [reflexivity|]. apply nocomma_ints.
  - rewrite strip_semi. intros H. apply app_eq_nil in H. destruct H; discriminate.
Qed.
Lemma twin_body_ok : forall e, nocomma (twin_body e) /\ strip (twin_body e) <> [].
Proof.
  intros [[[a b] c] d]. unfold twin_body. cbn [app]. split.
  - repeat (first [apply nocomma_ints | apply nocomma_app; [apply nocomma_ints|] | constructor; [reflexivity|]]).
  - rewrite strip_semi. intros H. apply app_eq_nil in H. destruct H; discriminate.
Qed.

(** ** Leaves *)
Lemma blank_app : forall a b, blank (a ++ b) = blank a && blank b.
Proof. intros. unfold blank. apply forallb_app. Qed.
Lemma wordy_not_blank : forall w, wordy w -> blank w = false.
Proof. intros [|c w] [N W]; [congruence|]. apply Forall_cons_iff in W. destruct W as [Hc _]. unfold blank. cbn [forallb]. rewrite Hc. reflexivity. Qed.
Lemma leaf_string : forall k s, blank s = false -> get_string (leaf k s) = POk s.
Proof.
  intros k s H. unfold leaf. rewrite H. unfold get_string. cbn [children node_value].
  destruct s; [discriminate | reflexivity].
Qed.
Lemma convert_leaf : forall A k s ex (f : text -> option A) a, blank s = false -> f s = Some a ->
  convert (leaf k s) ex f = POk a.
Proof. intros A k s ex f a H E. unfold convert. rewrite leaf_string, E by assumption. reflexivity. Qed.
Lemma leaf_blank : forall k s, blank s = true -> leaf k s = Elem k [] [].
Proof. intros k s H. unfold leaf. rewrite H. reflexivity. Qed.
Lemma leaf_nonblank : forall k s, blank s = false -> leaf k s = Elem k [] [Data s].
Proof. intros k s H. unfold leaf. rewrite H. reflexivity. Qed.
Lemma spaced_blank : forall A (show : A -> text) l, (forall a, wordy (show a)) -> l <> [] -> blank (flat_map (fun a => show a ++ [c_space]) l) = false.
Proof.
  intros A show [|a r] H N; [congruence|]. cbn [flat_map]. rewrite !blank_app, (wordy_not_blank _ (H a)). reflexivity.
Qed.
Lemma vec_leaf : forall A B (show : A -> text) (read : text -> option B) (g : A -> B) k l ex, (forall a, wordy (show a)) ->
  (forall a, In a l -> read (show a) = Some (g a)) ->
  (if is_empty (leaf k (flat_map (fun a => show a ++ [c_space]) l)) then POk []
   else convert (leaf k (flat_map (fun a => show a ++ [c_space]) l)) ex (fun s => mapM read (split_string s))) = POk (map g l).
Proof.
  intros A B show read g k l ex W H. destruct l as [|a r].
  - reflexivity.
  - set (l := a :: r) in *. assert (N : l <> []) by discriminate.
    pose proof (spaced_blank A show l W N) as Bl.
    rewrite (convert_leaf _ _ _ _ _ (map g l)); [|exact Bl|].
    + rewrite leaf_nonblank by exact Bl. reflexivity.
    + change (flat_map (fun a => show a ++ [c_space]) l) with (spaced show l). rewrite split_spaced by exact W.
      apply mapM_show. exact H.
Qed.
Lemma groups_leaf : forall A (body : A -> text) (read : text -> option A) k l,
  (forall a, nocomma (body a) /\ strip (body a) <> []) ->
  (forall a, blank (body a) = false) ->
  (forall a, In a l -> read (strip (body a)) = Some a) ->
  get_groups read (leaf k (flat_map (fun a => body a ++ [c_comma]) l)) = POk l.
Proof.
  intros A body read k l H Bl R. destruct l as [|a r]; [reflexivity|].
  set (l := a :: r) in *. set (s := flat_map _ l).
  assert (Bs : blank s = false).
  { unfold s, l. cbn [flat_map]. rewrite !blank_app, Bl. reflexivity. }
  unfold get_groups. rewrite leaf_string by exact Bs. rewrite leaf_nonblank by exact Bs. cbn [node_value].
  destruct s as [|c0 s0] eqn:Es; [discriminate|]. rewrite <- Es. cbn [pbind].
  unfold s. rewrite groups_show by (intros; apply H).
  rewrite (mapM_show _ _ (fun a => strip (body a)) read (fun a => a)); [rewrite map_id; reflexivity|]. exact R.
Qed.
Lemma flat_map_ext' : forall A B (f g : A -> list B) l, (forall a, f a = g a) -> flat_map f l = flat_map g l.
Proof. intros A B f g l H. induction l as [|a r IH]; [reflexivity|]. simpl. rewrite H, IH. reflexivity. Qed.
Lemma show_slip_body : forall e, show_slip e = slip_body e ++ [c_comma].
Proof. intros e. unfold show_slip, slip_body. rewrite <- !app_assoc. reflexivity. Qed.
Lemma show_twin_body : forall e, show_twin e = twin_body e ++ [c_comma].
Proof. intros [[[a b] c] d]. unfold show_twin, twin_body. rewrite <- !app_assoc. reflexivity. Qed.
Lemma blank_semi : forall a b, blank (a ++ c_semi :: b) = false.
Proof. intros. rewrite blank_app. unfold blank at 2. cbn [forallb]. replace (isspace c_semi) with false by reflexivity. apply andb_false_r. Qed.

(** ** Nodes for values *)
Fixpoint vec_nodes (k : string) (i : nat) (l : list object) : list node :=
  match l with
  | [] => []
  | o' :: q => make_object_node (append k (string_of_int i)) o' :: vec_nodes k (S i) q
  end.
Definition val_node (k : string) (v : pval) : node :=
  match v with
  | VDouble x => leaf k (show_double x)
  | VInt z => leaf k (show_int z)
  | VBool b => leaf k (if b then t_of "true" else t_of "false")
  | VVecDouble xs => leaf k (flat_map (fun x => show_double x ++ [c_space]) xs)
  | VObject o' => make_object_node k o'
  | VVecObject os => Elem k [] (vec_nodes k 0 os)
  | VString s => leaf k s
  | VSlip l' => leaf k (flat_map show_slip l')
  | VTwin l' => leaf k (flat_map show_twin l')
  | VSize z => leaf k (show_int z)
  | VVecSize zs => leaf k (flat_map (fun z => show_int z ++ [c_space]) zs)
  end.
Lemma make_object_node_unfold : forall nm t ps,
  make_object_node nm (Obj t ps) = Elem nm [("type"%string, t)] (map (fun kv => val_node (fst kv) (snd kv)) ps).
Proof.
  intros nm t ps. cbn [make_object_node]. f_equal.
  induction ps as [|[k v] r IH]; [reflexivity|]. cbn [map fst snd]. rewrite <- IH. f_equal.
  destruct v; try reflexivity. cbn [val_node]. f_equal. generalize 0%nat.
  induction l as [|o q IHq]; intros i; [reflexivity|]. cbn [vec_nodes]. rewrite <- IHq. reflexivity.
Qed.
Lemma val_node_name : forall k v, node_name (val_node k v) = k.
Proof. intros k v. destruct v; try reflexivity. destruct o. reflexivity. Qed.

Lemma append_digit_not_text : forall k i, append k (string_of_int i) <> "text"%string.
Proof.
  intros k i H. apply (f_equal list_ascii_of_string) in H.
  assert (EA : forall a b, list_ascii_of_string (append a b) = list_ascii_of_string a ++ list_ascii_of_string b).
  { induction a as [|c a IH]; intros b; [reflexivity|]. simpl. rewrite IH. reflexivity. }
  rewrite EA in H. unfold string_of_int in H. rewrite list_ascii_of_string_of_list_ascii in H.
  unfold show_int in H. destruct (Z.ltb_spec (Z.of_nat i) 0) as [C|C]; [lia|].
  destruct (digits_ok (Z.of_nat i)) as [_ [D N]]; [lia|].
  destruct (exists_last N) as [ds [d Ed]]. rewrite Ed in H, D. apply Forall_app in D. destruct D as [_ D].
  apply Forall_cons_iff in D. destruct D as [D _].
  rewrite map_app, app_assoc in H. cbn [map] in H.
  apply (f_equal (@rev ascii)) in H. rewrite rev_app_distr in H. cbn [rev app list_ascii_of_string] in H.
  inversion H as [[H1 H2]]. apply (f_equal isdigit) in H1. rewrite isdigit_dchar in H1 by assumption. discriminate.
Qed.

Lemma round_val_eqs : forall v, round_val v = match v with
  | VDouble x => VDouble (round6 x) | VVecDouble l => VVecDouble (map round6 l)
  | VObject o => VObject (round_obj o) | VVecObject l => VVecObject (map round_obj l) | _ => v end.
Proof. destruct v; reflexivity. Qed.

Definition round_ps (ps : list (string * pval)) := map (fun kv : string * pval => (fst kv, round_val (snd kv))) ps.

Lemma find_put : forall m k v j, find j (put k v m) = if String.eqb j k then Some v else find j m.
Proof.
  induction m as [|[k' w] r IH]; intros k v j; cbn [put find].
  - reflexivity.
  - destruct (String.eqb_spec k k') as [->|E]; cbn [find].
    + destruct (String.eqb j k'); reflexivity.
    + rewrite IH. destruct (String.eqb_spec j k') as [->|E2]; [|reflexivity].
      destruct (String.eqb_spec k' k); [congruence | reflexivity].
Qed.
Lemma param_loop_ok : forall F nm t sch ps vals, NoDup (map fst ps) -> ~ In "text"%string (map fst ps) ->
  (forall k v, In (k, v) ps -> exists ty, find k sch = Some ty /\ load_val F ty (val_node k v) = POk (round_val v)) ->
  exists vals', param_loop F nm (map (fun kv => val_node (fst kv) (snd kv)) ps) (mkPset t sch vals) = POk (mkPset t sch vals') /\
    forall j, find j vals' = match find j (round_ps ps) with Some v => Some v | None => find j vals end.
Proof.
  intros F nm t sch ps. induction ps as [|[k v] r IH]; intros vals Nd Nt H.
  - exists vals. split; reflexivity.
  - cbn [map fst snd param_loop]. rewrite val_node_name.
    simpl in Nt. apply NoDup_cons_iff in Nd. destruct Nd as [Nk Nd].
    destruct (String.eqb_spec k "text") as [->|Ek]; [exfalso; apply Nt; left; reflexivity|].
    destruct (H k v (or_introl eq_refl)) as [ty [Ft Lv]].
    assert (Ip : is_parameter k (mkPset t sch vals) = true).
    { unfold is_parameter, names. cbn [ps_schema]. unfold mem. apply existsb_exists. exists k.
      split; [|apply String.eqb_refl]. clear - Ft. induction sch as [|[a b] q IHq]; [discriminate|].
      simpl in *. destruct (String.eqb_spec k a); [left; auto | right; auto]. }
    rewrite Ip. unfold get_object_type. cbn [ps_schema]. rewrite Ft, Lv. cbn [pbind].
    unfold assign_parameter. rewrite Ip. cbn [pbind ps_type ps_schema ps_vals].
    destruct (IH (put k (round_val v) vals) Nd) as [vals' [E P]].
    { intros K. apply Nt. right. exact K. }
    { intros k' v' K. apply H. right. exact K. }
    exists vals'. split; [exact E|]. intros j. rewrite P, find_put. cbn [round_ps map fst snd find].
    fold (round_ps r). destruct (String.eqb_spec j k) as [->|Ej]; [|reflexivity].
    replace (find k (round_ps r)) with (@None pval); [reflexivity|]. symmetry.
    clear - Nk. induction r as [|[a b] q IHq]; [reflexivity|]. simpl in *. fold (round_ps q).
    destruct (String.eqb_spec k a); [subst; tauto|]. apply IHq. tauto.
Qed.

Lemma wf_obj_inv : forall F t ps, wf_obj F (Obj t ps) -> exists s, t <> "none"%string /\ setups F t = Some s /\
  map fst ps = map (fun e => fst (fst e)) s /\ NoDup (map fst ps) /\ ~ In "text"%string (map fst ps) /\
  (forall k v, In (k, v) ps -> exists ty d, In (k, ty, d) s /\ wf_val F ty v) /\
  accepts F t (map (fun kv => (fst kv, round_val (snd kv))) ps) = true.
Proof. intros F t ps H. inversion H; subst. exists s. auto 10. Qed.

Lemma find_fst_in : forall (s : schema) k ty d, NoDup (map (fun e => fst (fst e)) s) -> In (k, ty, d) s -> find k (map fst s) = Some ty.
Proof.
  induction s as [|[[a b] c] r IH]; intros k ty d N H; [contradiction|]. simpl in *.
  apply NoDup_cons_iff in N. destruct N as [N1 N2].
  destruct (String.eqb_spec k a) as [->|E].
  - destruct H as [H|H]; [congruence|]. exfalso. apply N1. apply (in_map (fun e => fst (fst e))) in H. exact H.
  - destruct H as [H|H]; [congruence|]. eapply IH; eauto.
Qed.

Lemma filter_names : forall (ps : list (string * pval)) f, (forall n, In n (map fst ps) -> find n f = find n ps) -> NoDup (map fst ps) ->
  flat_map (fun n => match find n f with Some v => [(n, v)] | None => [] end) (map fst ps) = ps.
Proof.
  intros ps f. revert f. assert (X : forall (l : list (string * pval)) f, (forall n v, In (n, v) l -> find n f = Some v) ->
    flat_map (fun n => match find n f with Some v => [(n, v)] | None => [] end) (map fst l) = l).
  { induction l as [|[k v] r IH]; intros f H; [reflexivity|]. cbn [map fst flat_map].
    rewrite (H k v) by (left; reflexivity). cbn [app]. f_equal. apply IH. intros. apply H. right; assumption. }
  intros f H N. apply (X ps f). intros n v Hi. rewrite H by (apply (in_map fst) in Hi; exact Hi).
  clear - N Hi. induction ps as [|[a b] q IH]; [contradiction|]. simpl in *. apply NoDup_cons_iff in N. destruct N as [N1 N2].
  destruct (String.eqb_spec n a) as [->|E].
  - destruct Hi as [Hi|Hi]; [congruence|]. exfalso. apply N1. apply (in_map fst) in Hi. exact Hi.
  - destruct Hi as [Hi|Hi]; [congruence | auto].
Qed.

Lemma wf_val_cases : forall F ty v, wf_val F ty v ->
  match v with
  | VDouble x => ty = PT_double
  | VInt z => ty = PT_int /\ int32 z
  | VBool b => ty = PT_bool
  | VVecDouble l => ty = PT_vec_double
  | VObject o => ty = PT_object /\ wf_obj F o
  | VVecObject l => ty = PT_vec_object /\ forall o, In o l -> wf_obj F o
  | VString s => ty = PT_string /\ blank s = false
  | VSlip l => ty = PT_slip /\ forall a b, In (a, b) l -> List.Forall int32 a /\ List.Forall int32 b
  | VSize z => ty = PT_size /\ uint64 z
  | VVecSize l => ty = PT_vec_size /\ List.Forall uint64 l
  | VTwin l => ty = PT_twin /\ forall a b c d, In (a, b, c, d) l ->
      List.Forall int32 a /\ List.Forall int32 b /\ List.Forall int32 c /\ List.Forall int32 d
  end.
Proof. intros F ty v H. destruct H; auto. Qed.

Theorem roundtrip : forall F o nm, wf_obj F o -> get_object F (make_object_node nm o) = POk (round_obj o).
Proof.
  intros F o nm. revert nm.
  apply (object_ind2 (fun o => forall nm, wf_obj F o -> get_object F (make_object_node nm o) = POk (round_obj o))
    (fun v => forall k ty, wf_val F ty v -> load_val F ty (val_node k v) = POk (round_val v))).
  - intros t ps IH nm H. destruct (wf_obj_inv F t ps H) as [s [Ht [Hs [Hn [Nd [Nt [Hv Ha]]]]]]].
    rewrite make_object_node_unfold.
    assert (Et : get_type_of_node (Elem nm [("type"%string, t)] (map (fun kv => val_node (fst kv) (snd kv)) ps)) = t) by reflexivity.
    rewrite get_object_unfold by (rewrite Et; exact Ht). rewrite Et.
    unfold provide_parameters. rewrite Hs. cbn [pbind]. unfold fresh.
    destruct (param_loop_ok F nm t (map fst s) ps
      (flat_map (fun e => match snd e with Some v => [(fst (fst e), v)] | None => [] end) s) Nd Nt) as [vals' [E P]].
    { intros k v Hi. destruct (Hv k v Hi) as [ty [d [Hin Hw]]]. exists ty. split.
      - eapply find_fst_in; [|exact Hin]. rewrite <- Hn. exact Nd.
      - rewrite Forall_forall in IH. apply (IH (k, v) Hi k ty Hw). }
    rewrite E. cbn [pbind]. unfold create. cbn [ps_type].
    assert (Nm : names (map fst s) = map fst (round_ps ps)).
    { unfold names, round_ps. rewrite !map_map. symmetry. exact Hn. }
    assert (Fn : forall n, In n (map fst (round_ps ps)) -> find n vals' = find n (round_ps ps)).
    { intros n Hi. rewrite P. destruct (find n (round_ps ps)) eqn:Ef; [reflexivity|]. exfalso.
      clear - Hi Ef. induction (round_ps ps) as [|[a b] q IHq]; [contradiction|]. simpl in *.
      destruct (String.eqb_spec n a); [discriminate|]. destruct Hi as [Hi|Hi]; [congruence | auto]. }
    assert (NdR : NoDup (map fst (round_ps ps))).
    { unfold round_ps. rewrite map_map. exact Nd. }
    assert (Fa : fully_assigned (mkPset t (map fst s) vals') = true).
    { unfold fully_assigned. cbn [ps_schema ps_vals]. rewrite Nm. apply forallb_forall. intros n Hi. rewrite Fn by assumption.
      clear - Hi. induction (round_ps ps) as [|[a b] q IHq]; [contradiction|]. simpl in *.
      destruct (String.eqb_spec n a); [reflexivity|]. destruct Hi as [Hi|Hi]; [congruence | auto]. }
    rewrite Fa, Hs.
    assert (Oe : ordered (mkPset t (map fst s) vals') = round_ps ps).
    { unfold ordered. cbn [ps_schema ps_vals]. rewrite Nm. apply filter_names; [exact Fn | exact NdR]. }
    rewrite Oe. unfold round_ps at 1. rewrite Ha. reflexivity.
  - intros x k ty H. apply wf_val_cases in H. subst ty. cbn [load_val val_node]. unfold get_double.
    rewrite (convert_leaf _ _ _ _ _ (round6 x)); [reflexivity | apply wordy_not_blank; apply wordy_double | apply stod_show_double].
  - intros z k ty H. apply wf_val_cases in H. destruct H as [-> Hz]. cbn [load_val val_node]. unfold get_int.
    rewrite (convert_leaf _ _ _ _ _ z); [reflexivity | apply wordy_not_blank; apply wordy_int | apply stoi_show; exact Hz].
  - intros b k ty H. apply wf_val_cases in H. subst ty. destruct b; reflexivity.
  - intros l k ty H. apply wf_val_cases in H. subst ty. cbn [load_val val_node]. unfold get_vector_double, split_string_double.
    rewrite (vec_leaf _ _ show_double stod round6); [reflexivity | exact wordy_double | intros; apply stod_show_double].
  - intros o0 IH k ty H. apply wf_val_cases in H. destruct H as [-> Hw]. cbn [load_val val_node]. rewrite IH by assumption. reflexivity.
  - intros l IH k ty H. apply wf_val_cases in H. destruct H as [-> Hw]. cbn [load_val val_node].
    assert (V : forall i, vec_loop F (vec_nodes k i l) = POk (map round_obj l)).
    { clear - IH Hw. induction l as [|o q IHq]; intros i; [reflexivity|]. cbn [vec_nodes vec_loop].
      assert (En : node_name (make_object_node (append k (string_of_int i)) o) = append k (string_of_int i)) by (destruct o; reflexivity).
      rewrite En. destruct (String.eqb_spec (append k (string_of_int i)) "text") as [C|C]; [exfalso; eapply append_digit_not_text; exact C|].
      apply Forall_cons_iff in IH. destruct IH as [I1 I2].
      rewrite I1 by (apply Hw; left; reflexivity). cbn [pbind].
      rewrite IHq; [reflexivity | exact I2 | intros; apply Hw; right; assumption]. }
    specialize (V 0%nat). destruct l as [|[t ps] q]; [reflexivity|]. cbn [vec_nodes] in *.
    rewrite make_object_node_unfold in *. rewrite V. reflexivity.
  - intros s k ty H. apply wf_val_cases in H. destruct H as [-> Hb]. cbn [load_val val_node]. rewrite leaf_string by assumption. reflexivity.
  - intros l k ty H. apply wf_val_cases in H. destruct H as [-> Hl]. cbn [load_val val_node]. unfold get_slip.
    rewrite (flat_map_ext' _ _ show_slip (fun a => slip_body a ++ [c_comma]) l show_slip_body).
    rewrite groups_leaf; [reflexivity | exact slip_body_ok | |].
    + intros [a b]. unfold slip_body. apply blank_semi.
    + intros [a b] Hi. apply Hl in Hi. apply read_slip_show; tauto.
  - intros z k ty H. apply wf_val_cases in H. destruct H as [-> Hz]. cbn [load_val val_node]. unfold get_size_type.
    rewrite (convert_leaf _ _ _ _ _ z); [reflexivity | apply wordy_not_blank; apply wordy_int | apply stoul_show; exact Hz].
  - intros l k ty H. apply wf_val_cases in H. destruct H as [-> Hl]. cbn [load_val val_node]. unfold get_vector_size_type, split_string_size_type.
    rewrite (vec_leaf _ _ show_int stoul (fun z => z)); [rewrite map_id; reflexivity | exact wordy_int |].
    intros a Ha. apply stoul_show. rewrite Forall_forall in Hl. apply Hl. exact Ha.
  - intros l k ty H. apply wf_val_cases in H. destruct H as [-> Hl]. cbn [load_val val_node]. unfold get_twin.
    rewrite (flat_map_ext' _ _ show_twin (fun a => twin_body a ++ [c_comma]) l show_twin_body).
    rewrite groups_leaf; [reflexivity | exact twin_body_ok | |].
    + intros [[[a b] c] d]. unfold twin_body. apply blank_semi.
    + intros [[[a b] c] d] Hi. apply Hl in Hi. apply read_twin_show; tauto.
Qed.

(** ** Exactness *)
Lemma short_val_all : forall ps, short_obj (Obj "" ps) -> List.Forall (fun kv => short_val (snd kv)) ps.
Proof. induction ps as [|kv r IH]; intros H; constructor; [apply H | apply IH; apply H]. Qed.
Lemma short_objs_all : forall l, short_val (VVecObject l) -> List.Forall short_obj l.
Proof. induction l as [|o r IH]; intros H; constructor; [apply H | apply IH; apply H]. Qed.
Lemma round6_short : forall x, six_digits x -> round6 x = x.
Proof. intros x [k [z [Hk ->]]]. apply round6_exact. exact Hk. Qed.
Lemma round_short : forall o, short_obj o -> round_obj o = o.
Proof.
  apply (object_ind2 (fun o => short_obj o -> round_obj o = o) (fun v => short_val v -> round_val v = v)); try reflexivity.
  - intros t ps IH H. assert (H' : short_obj (Obj "" ps)) by exact H. apply short_val_all in H'. simpl. f_equal.
    induction ps as [|[k v] r IHr]; [reflexivity|]. apply Forall_cons_iff in IH. apply Forall_cons_iff in H'.
    destruct IH as [I1 I2]. destruct H' as [H1 H2]. simpl. f_equal; [f_equal; apply I1; exact H1|].
    apply IHr; [exact I2 | apply H | exact H2].
  - intros x H. simpl. rewrite round6_short by exact H. reflexivity.
  - intros l H. simpl in *. f_equal. induction H as [|x l Hx Hl IH]; [reflexivity|]. simpl. rewrite IH, round6_short by exact Hx. reflexivity.
  - intros o IH H. simpl in *. rewrite IH by exact H. reflexivity.
  - intros l IH H. apply short_objs_all in H. simpl. f_equal. induction l as [|o r IHr]; [reflexivity|].
    apply Forall_cons_iff in IH. apply Forall_cons_iff in H. simpl. destruct IH as [I1 I2]. destruct H as [H1 H2].
    rewrite I1 by exact H1. f_equal. apply IHr; assumption.
Qed.
Lemma round_idem : forall o, round_obj (round_obj o) = round_obj o.
Proof.
  apply (object_ind2 (fun o => round_obj (round_obj o) = round_obj o) (fun v => round_val (round_val v) = round_val v)); try reflexivity.
  - intros t ps IH. simpl. f_equal. rewrite map_map. apply map_ext_in. intros [k v] Hi. simpl. rewrite Forall_forall in IH.
    f_equal. apply (IH (k, v) Hi).
  - intros x. simpl. rewrite round6_idem. reflexivity.
  - intros l. simpl. f_equal. rewrite map_map. apply map_ext. intros. apply round6_idem.
  - intros o IH. simpl. rewrite IH. reflexivity.
  - intros l IH. simpl. f_equal. rewrite map_map. apply map_ext_in. rewrite Forall_forall in IH. exact IH.
Qed.
Lemma round_val_idem : forall v, round_val (round_val v) = round_val v.
Proof.
  intros v. pose proof (round_idem (Obj "" [(""%string, v)])) as H. simpl in H. injection H as H. exact H.
Qed.
Lemma wf_round : forall F o, wf_obj F o -> wf_obj F (round_obj o).
Proof.
  intros F. apply (object_ind2 (fun o => wf_obj F o -> wf_obj F (round_obj o)) (fun v => forall ty, wf_val F ty v -> wf_val F ty (round_val v)));
    try (intros; assumption).
  - intros t ps IH H. destruct (wf_obj_inv F t ps H) as [s [Ht [Hs [Hn [Nd [Nt [Hv Ha]]]]]]]. simpl.
    apply (WF_obj F t _ s); rewrite ?map_map; cbn [fst snd]; try assumption.
    + intros k v Hi. apply in_map_iff in Hi. destruct Hi as [[k' v'] [E Hi]]. inversion E; subst. simpl.
      destruct (Hv k v' Hi) as [ty [d [Hin Hw]]]. exists ty, d. split; [assumption|].
      rewrite Forall_forall in IH. apply (IH (k, v') Hi). assumption.
    + rewrite <- Ha. f_equal. apply map_ext. intros [k v]. simpl. rewrite round_val_idem. reflexivity.
  - intros x ty H. apply wf_val_cases in H. subst. constructor.
  - intros l ty H. apply wf_val_cases in H. subst. constructor.
  - intros o IH ty H. apply wf_val_cases in H. destruct H as [-> H]. constructor. apply IH. exact H.
  - intros l IH ty H. apply wf_val_cases in H. destruct H as [-> H]. simpl. constructor. intros o Ho. apply in_map_iff in Ho.
    destruct Ho as [o' [<- Ho]]. rewrite Forall_forall in IH. apply IH; auto.
Qed.
Lemma reload_exact_second : forall F o nm, wf_obj F o ->
  get_object F (make_object_node nm (round_obj o)) = POk (round_obj o).
Proof. intros F o nm H. rewrite (roundtrip F (round_obj o) nm (wf_round F o H)), round_idem. reflexivity. Qed.

(** ** Errors *)
Lemma mem_In : forall n l, mem n l = true <-> In n l.
Proof.
  intros n l. unfold mem. rewrite existsb_exists. split.
  - intros [x [H E]]. apply String.eqb_eq in E. subst. exact H.
  - intros H. exists n. split; [exact H | apply String.eqb_refl].
Qed.
Lemma param_loop_inv : forall F nm cs p p', param_loop F nm cs p = POk p' ->
  ps_type p' = ps_type p /\ ps_schema p' = ps_schema p /\
  forall c, In c cs -> node_name c <> "text"%string -> In (node_name c) (names (ps_schema p)).
Proof.
  intros F nm. induction cs as [|c r IH]; intros p p' H; cbn [param_loop] in H.
  - inversion H; subst. repeat split; auto. intros c [].
  - destruct (String.eqb_spec (node_name c) "text") as [E|E].
    + apply IH in H. destruct H as [A [B C]]. repeat split; auto. intros c' [<-|K] N; [congruence | auto].
    + destruct (is_parameter (node_name c) p) eqn:Ip; [|discriminate].
      destruct (load_val F (get_object_type (node_name c) p) c) as [v|e]; [|discriminate]. cbn [pbind] in H.
      unfold assign_parameter in H. rewrite Ip in H. cbn [pbind] in H. apply IH in H. cbn [ps_type ps_schema] in H.
      destruct H as [A [B C]]. repeat split; auto. intros c' [<-|K] N; [|auto].
      unfold is_parameter in Ip. apply mem_In in Ip. exact Ip.
Qed.
Lemma flat_find_names : forall ns (vals : amap pval), (forall n, In n ns -> find n vals <> None) ->
  map fst (flat_map (fun n => match find n vals with Some v => [(n, v)] | None => [] end) ns) = ns.
Proof.
  induction ns as [|n r IH]; intros vals H; [reflexivity|]. cbn [flat_map].
  destruct (find n vals) eqn:E; [|exfalso; apply (H n); [left; reflexivity | exact E]].
  cbn [app map fst]. rewrite IH; [reflexivity|]. intros. apply H. right; assumption.
Qed.
Lemma loaded_complete : forall F nm at_ ch t ps, get_type_of_node (Elem nm at_ ch) <> "none"%string ->
  get_object F (Elem nm at_ ch) = POk (Obj t ps) ->
  t = get_type_of_node (Elem nm at_ ch) /\
  exists s, setups F t = Some s /\ map fst ps = declared s /\ forall c, In c ch -> node_name c <> "text"%string -> In (node_name c) (declared s).
Proof.
  intros F nm at_ ch t ps Hn H. rewrite get_object_unfold in H by exact Hn.
  set (ty := get_type_of_node (Elem nm at_ ch)) in *. unfold provide_parameters in H.
  destruct (setups F ty) as [s|] eqn:Es; [|discriminate]. cbn [pbind] in H.
  destruct (param_loop F nm ch (fresh ty s)) as [p|e] eqn:Ep; [|discriminate]. cbn [pbind] in H.
  apply param_loop_inv in Ep. destruct Ep as [A [B C]]. unfold fresh in A, B, C. cbn [ps_type ps_schema] in A, B, C.
  unfold create in H. destruct (fully_assigned p) eqn:Fa; [|discriminate]. rewrite A, Es in H.
  destruct (accepts F ty (ordered p)); [|discriminate]. inversion H; subst t ps.
  assert (Nn : names (map fst s) = declared s) by (unfold names, declared; rewrite map_map; reflexivity).
  split; [reflexivity|]. exists s. split; [exact Es|]. split.
  - unfold ordered. rewrite B. rewrite flat_find_names; [exact Nn|]. intros n Hi.
    unfold fully_assigned in Fa. rewrite B in Fa. rewrite forallb_forall in Fa. specialize (Fa n Hi). intros K. rewrite K in Fa. discriminate.
  - rewrite <- Nn. exact C.
Qed.
Lemma param_loop_app : forall F nm a b p, param_loop F nm (a ++ b) p = pbind (param_loop F nm a p) (param_loop F nm b).
Proof.
  intros F nm. induction a as [|c r IH]; intros b p; cbn [app param_loop pbind]; [reflexivity|].
  destruct (String.eqb (node_name c) "text"); [apply IH|].
  destruct (is_parameter (node_name c) p); [|reflexivity].
  destruct (load_val F (get_object_type (node_name c) p) c); [|reflexivity]. cbn [pbind].
  destruct (assign_parameter (node_name c) a p); [apply IH | reflexivity].
Qed.
Lemma param_loop_reads : forall F nm s cs p, NoDup (declared s) -> ps_schema p = map fst s ->
  (forall c, In c cs -> node_name c <> "text"%string -> exists ty d v, In (node_name c, ty, d) s /\ load_val F ty c = POk v) ->
  exists p', param_loop F nm cs p = POk p' /\ forall n, n <> "text"%string -> (find n (ps_vals p') = None <-> find n (ps_vals p) = None /\ ~ In n (map node_name cs)).
Proof.
  intros F nm s. induction cs as [|c r IH]; intros p Nd Sp H; cbn [param_loop].
  - exists p. split; [reflexivity|]. intros n Hn. simpl. tauto.
  - destruct (String.eqb_spec (node_name c) "text") as [E|E].
    + destruct (IH p Nd Sp) as [p' [E1 E2]]; [intros; apply H; [right|]; assumption|]. exists p'. split; [exact E1|].
      intros n Hn. rewrite E2 by exact Hn. simpl. rewrite E. split; [intros [A B]; split; [exact A | intros [K|K]; [congruence | auto]] | intros [A B]; tauto].
    + destruct (H c (or_introl eq_refl) E) as [ty [d [v [Hin Hl]]]].
      assert (Ft : find (node_name c) (map fst s) = Some ty) by (eapply find_fst_in; eauto).
      assert (Ip : is_parameter (node_name c) p = true).
      { unfold is_parameter, names. rewrite Sp. apply mem_In. apply (in_map fst) in Hin. apply (in_map fst) in Hin. exact Hin. }
      rewrite Ip. unfold get_object_type. rewrite Sp, Ft, Hl. cbn [pbind]. unfold assign_parameter. rewrite Ip. cbn [pbind].
      destruct (IH (mkPset (ps_type p) (ps_schema p) (put (node_name c) v (ps_vals p))) Nd Sp) as [p' [E1 E2]]; [intros; apply H; [right|]; assumption|].
      exists p'. split; [exact E1|]. intros n Hn. rewrite E2 by exact Hn. cbn [ps_vals]. rewrite find_put. simpl.
      destruct (String.eqb_spec n (node_name c)) as [->|En].
      * split; [intros [K _]; discriminate | intros [_ K]; exfalso; apply K; left; reflexivity].
      * split; [intros [A B]; split; [exact A | intros [K|K]; [congruence | auto]] | intros [A B]; tauto].
Qed.
Lemma unknown_child : forall F nm at_ pre c post s, setups F (get_type_of_node (Elem nm at_ (pre ++ c :: post))) = Some s ->
  get_type_of_node (Elem nm at_ (pre ++ c :: post)) <> "none"%string ->
  NoDup (declared s) ->
  (forall c', In c' pre -> node_name c' <> "text"%string -> exists ty d v, In (node_name c', ty, d) s /\ load_val F ty c' = POk v) ->
  node_name c <> "text"%string -> ~ In (node_name c) (declared s) ->
  get_object F (Elem nm at_ (pre ++ c :: post)) = PErr (UnknownParameterXML nm (node_name c)).
Proof.
  intros F nm at_ pre c post s Hs Hn Nd Hp Ht Hu. rewrite get_object_unfold by exact Hn. unfold provide_parameters. rewrite Hs. cbn [pbind].
  rewrite param_loop_app.
  destruct (param_loop_reads F nm s pre (fresh (get_type_of_node (Elem nm at_ (pre ++ c :: post))) s) Nd eq_refl Hp) as [p' [E _]].
  rewrite E. cbn [pbind param_loop]. apply param_loop_inv in E. destruct E as [_ [E _]]. cbn [ps_schema fresh] in E.
  destruct (String.eqb_spec (node_name c) "text"); [contradiction|].
  assert (Ip : is_parameter (node_name c) p' = false).
  { unfold is_parameter. rewrite E. destruct (mem (node_name c) (names (map fst s))) eqn:Em; [|reflexivity].
    apply mem_In in Em. exfalso. apply Hu. unfold names in Em. rewrite map_map in Em. exact Em. }
  rewrite Ip. reflexivity.
Qed.
Lemma find_default : forall (s : schema) n, NoDup (declared s) -> In n (declared s) ->
  (find n (flat_map (fun e => match snd e with Some v => [(fst (fst e), v)] | None => [] end) s) = None
   <-> In n (map (fun e => fst (fst e)) (filter (fun e : string * ptype * option pval => match snd e with None => true | Some _ => false end) s))).
Proof.
  assert (Z0 : forall (s : schema) n, ~ In n (declared s) ->
    find n (flat_map (fun e => match snd e with Some v => [(fst (fst e), v)] | None => [] end) s) = None).
  { induction s as [|[[a b] [v|]] r IH]; intros n H; [reflexivity| |]; simpl in *.
    - destruct (String.eqb_spec n a); [subst; tauto | apply IH; tauto].
    - apply IH. tauto. }
  induction s as [|[[a b] o] r IH]; intros n N Hi; [contradiction|].
  change (declared ((a, b, o) :: r)) with (a :: declared r) in N, Hi. apply NoDup_cons_iff in N. destruct N as [N1 N2].
  cbn [flat_map filter snd fst]. destruct o as [v|].
  - cbn [app find]. destruct (String.eqb_spec n a) as [->|E].
    + split; [discriminate|]. intros K. exfalso. apply N1. apply in_map_iff in K. destruct K as [e [K1 K2]]. apply filter_In in K2.
      unfold declared. rewrite <- K1. apply (in_map (fun e => fst (fst e))). tauto.
    + destruct Hi as [Hi|Hi]; [congruence|]. apply IH; assumption.
  - cbn [app map fst]. destruct Hi as [Hi|Hi].
    + subst a. split; [intros _; left; reflexivity | intros _]. apply Z0. exact N1.
    + specialize (IH n N2 Hi). rewrite IH. simpl. split; [tauto|]. intros [K|K]; [subst; contradiction | exact K].
Qed.
Lemma filter_map_list : forall (s : schema) f g, NoDup (declared s) ->
  (forall n, In n (declared s) -> (f n = true <-> In n (map (fun e => fst (fst e)) (filter (fun e : string * ptype * option pval => match snd e with None => true | Some _ => false end) s)) /\ g n = true)) ->
  filter f (declared s) = filter g (map (fun e => fst (fst e)) (filter (fun e : string * ptype * option pval => match snd e with None => true | Some _ => false end) s)).
Proof.
  induction s as [|[[a b] o] r IH]; intros f g N H; [reflexivity|].
  change (declared ((a, b, o) :: r)) with (a :: declared r) in *. apply NoDup_cons_iff in N. destruct N as [N1 N2].
  assert (Sub : forall n, In n (map (fun e => fst (fst e)) (filter (fun e : string * ptype * option pval => match snd e with None => true | Some _ => false end) r)) -> In n (declared r)).
  { intros n K. apply in_map_iff in K. destruct K as [e [K1 K2]]. apply filter_In in K2. rewrite <- K1. apply (in_map (fun e => fst (fst e))). tauto. }
  pose proof (H a (or_introl eq_refl)) as Ha.
  assert (IH' : filter f (declared r) = filter g (map (fun e => fst (fst e)) (filter (fun e : string * ptype * option pval => match snd e with None => true | Some _ => false end) r))).
  { apply IH; [exact N2|]. intros n Hi. rewrite (H n (or_intror Hi)). cbn [filter snd]. destruct o; [reflexivity|]. simpl.
    split; [intros [[K|K] G]; [subst; contradiction | tauto] | tauto]. }
  cbn [filter]. cbn [filter snd] in Ha. destruct o as [v|]; cbn [map fst filter snd] in *.
  - destruct (f a) eqn:Fa; [|exact IH']. exfalso. apply N1. apply Sub. apply Ha. reflexivity.
  - simpl in Ha. rewrite IH'. destruct (f a), (g a); try reflexivity.
    + destruct Ha as [Ha _]. destruct (Ha eq_refl). discriminate.
    + destruct Ha as [_ Ha]. discriminate Ha. split; [left|]; reflexivity.
Qed.
Lemma missing_reported : forall F nm at_ ch s, get_type_of_node (Elem nm at_ ch) <> "none"%string ->
  setups F (get_type_of_node (Elem nm at_ ch)) = Some s -> NoDup (declared s) -> ~ In "text"%string (declared s) ->
  (forall c, In c ch -> node_name c <> "text"%string -> exists ty d v, In (node_name c, ty, d) s /\ load_val F ty c = POk v) ->
  missing s ch <> [] ->
  get_object F (Elem nm at_ ch) = PErr (UndefinedParameters (get_type_of_node (Elem nm at_ ch)) (missing s ch)).
Proof.
  intros F nm at_ ch s Hn Hs Nd Nt Hc Hm. rewrite get_object_unfold by exact Hn. set (ty := get_type_of_node (Elem nm at_ ch)) in *.
  unfold provide_parameters. rewrite Hs. cbn [pbind].
  destruct (param_loop_reads F nm s ch (fresh ty s) Nd eq_refl Hc) as [p' [E P]]. rewrite E. cbn [pbind].
  pose proof (param_loop_inv _ _ _ _ _ E) as [A [B _]]. unfold fresh in A, B. cbn [ps_type ps_schema] in A, B.
  assert (Nn : names (map fst s) = declared s) by (unfold names, declared; rewrite map_map; reflexivity).
  assert (U : unassigned_parameters p' = missing s ch).
  { unfold unassigned_parameters, missing. rewrite B, Nn. apply filter_map_list; [exact Nd|]. intros n Hi.
    assert (n <> "text"%string) by (intros ->; contradiction).
    specialize (P n H). cbn [ps_vals fresh] in P. rewrite (find_default s n Nd Hi) in P.
    destruct (find n (ps_vals p')).
    - split; [discriminate|]. intros [K1 K2]. exfalso. destruct P as [_ P]. assert (Some p = None) as X; [|discriminate X].
      apply P. split; [exact K1|]. intros K. apply mem_In in K. rewrite K in K2. discriminate.
    - split; [|reflexivity]. intros _. destruct P as [P _]. destruct (P eq_refl) as [K1 K2]. split; [exact K1|].
      destruct (mem n (map node_name ch)) eqn:Em; [|reflexivity]. apply mem_In in Em. contradiction. }
  unfold create. rewrite U, A.
  assert (Fa : fully_assigned p' = false).
  { unfold fully_assigned. destruct (forallb _ _) eqn:Ef; [|reflexivity]. exfalso. apply Hm. rewrite <- U. unfold unassigned_parameters.
    rewrite forallb_forall in Ef. induction (names (ps_schema p')) as [|n r IH]; [reflexivity|]. simpl.
    pose proof (Ef n (or_introl eq_refl)) as K. destruct (find n (ps_vals p')); [|discriminate]. apply IH. intros; apply Ef; right; assumption. }
  rewrite Fa. reflexivity.
Qed.
Lemma unregistered_xml : forall F nm at_ ch, get_type_of_node (Elem nm at_ ch) <> "none"%string ->
  setups F (get_type_of_node (Elem nm at_ ch)) = None ->
  get_object F (Elem nm at_ ch) = PErr BadFunctionCall.
Proof. intros F nm at_ ch Hn Hs. rewrite get_object_unfold by exact Hn. unfold provide_parameters. rewrite Hs. reflexivity. Qed.

(** Model of src/surfaces.cxx and the IsoFunction template of include/surfaces.h.
    CINDEX(i,j,n) positions of the output arrays are pairs (i,j). *)
From Verif Require Import Base.
From Verif Require Import NemlMathModel.

(** The YieldSurface interface, include/surfaces.h:28-57. *)
Record surface := {
  ys_n : nat;
  ys_f : vec -> vec -> R -> R;
  ys_ds : vec -> vec -> R -> vec;
  ys_dq : vec -> vec -> R -> vec;
  ys_dss : vec -> vec -> R -> mat;
  ys_dqq : vec -> vec -> R -> mat;
  ys_dsq : vec -> vec -> R -> mat;
  ys_dqs : vec -> vec -> R -> mat
}.

(** &q[1] *)
(** &q[1], src/surfaces.cxx:65-73 *)
Definition tail1 (q : vec) : vec := fun i => q (S i).
(** deviator of the stress plus the backstress, e.g. src/surfaces.cxx:68-71 *)
Definition rel (s q : vec) : vec := vadd (dev_vec s) (tail1 q).
(** src/surfaces.cxx:261-280 *)
Definition iv : vec := fun i => if Nat.ltb i 3 then 1 / 3 else 0.
(** src/surfaces.cxx:261-280 *)
Definition jv : vec := fun i => if Nat.ltb i 3 then 1 else 0.

(** ** IsoKinJ2 *)
(** src/surfaces.cxx:65-73 *)
Definition j2_f (s q : vec) (T : R) : R := norm2 6 (rel s q) + sqrt (2 / 3) * q 0%nat.
(** src/surfaces.cxx:75-82 *)
Definition j2_ds (s q : vec) (T : R) : vec := normalize_vec 6 (rel s q).
(** src/surfaces.cxx:84-90 *)
Definition j2_dq (s q : vec) (T : R) : vec := fun i => match i with O => sqrt (2 / 3) | S k => j2_ds s q T k end.
(** src/surfaces.cxx:92-129 *)
Definition j2_dss (s q : vec) (T : R) : mat := fun i j =>
  let nv := norm2 6 (rel s q) in
  let n := normalize_vec 6 (rel s q) in
  if Rlt_dec 0 nv then (delta i j - iv i * jv j - n i * n j) / nv else 0.
(** the block (I - n n^T)/nv of src/surfaces.cxx:136-154 and :170-187 *)
Definition j2_xx (s q : vec) : mat := fun i j =>
  let nv := norm2 6 (rel s q) in
  let n := normalize_vec 6 (rel s q) in
  if Rlt_dec 0 nv then (delta i j - n i * n j) / nv else 0.
(** src/surfaces.cxx:131-163 *)
Definition j2_dqq (s q : vec) (T : R) : mat := fun i j =>
  match i, j with S a, S b => j2_xx s q a b | _, _ => 0 end.
(** src/surfaces.cxx:165-196 *)
Definition j2_dsq (s q : vec) (T : R) : mat := fun i j => match j with S b => j2_xx s q i b | O => 0 end.
(** src/surfaces.cxx:198-212 *)
Definition j2_dqs (s q : vec) (T : R) : mat := fun i j => match i with S a => j2_dss s q T a j | O => 0 end.
(** src/surfaces.cxx:37-212 *)
Definition IsoKinJ2 : surface :=
  {| ys_n := 7; ys_f := j2_f; ys_ds := j2_ds; ys_dq := j2_dq; ys_dss := j2_dss; ys_dqq := j2_dqq; ys_dsq := j2_dsq; ys_dqs := j2_dqs |}.

(** ** IsoKinJ2I1; h and l are the values of the two interpolates at T *)
(** src/surfaces.cxx:249-259 *)
Definition i1_f (h l : R -> R) (s q : vec) (T : R) : R :=
  norm2 6 (rel s q) + sqrt (2 / 3) * q 0%nat
  + copysign (h T * cpow (Rabs (s 0%nat + s 1%nat + s 2%nat)) (l T)) (s 0%nat + s 1%nat + s 2%nat).
(** src/surfaces.cxx:261-280 *)
Definition i1_dsh (h l : R -> R) (s : vec) (T : R) : vec := fun i =>
  if Nat.ltb i 3 then h T * l T * cpow (Rabs (s 0%nat + s 1%nat + s 2%nat)) (l T - 1) else 0.
(** src/surfaces.cxx:261-280 (df_ds) *)
Definition i1_ds (h l : R -> R) (s q : vec) (T : R) : vec := vadd (normalize_vec 6 (rel s q)) (i1_dsh h l s T).
(** src/surfaces.cxx:282-291 *)
Definition i1_dq (s q : vec) (T : R) : vec := fun i => match i with O => sqrt (2 / 3) | S k => normalize_vec 6 (rel s q) k end.
(** src/surfaces.cxx:293-338; there is no test of nv > 0 *)
Definition i1_iv2 (h l : R -> R) (s : vec) (T : R) : vec := fun i =>
  if Nat.ltb i 3 then copysign (h T * l T * (l T - 1) * cpow (Rabs (s 0%nat + s 1%nat + s 2%nat)) (l T - 2)) (s 0%nat + s 1%nat + s 2%nat) else 0.
(** src/surfaces.cxx:293-338 (df_dsds) *)
Definition i1_dss (h l : R -> R) (s q : vec) (T : R) : mat := fun i j =>
  let nv := norm2 6 (rel s q) in
  let n := normalize_vec 6 (rel s q) in
  (delta i j - iv i * jv j - n i * n j) / nv + i1_iv2 h l s T i * jv j.
(** src/surfaces.cxx:345-361, :376-392 *)
Definition i1_xx (s q : vec) : mat := fun i j =>
  let nv := norm2 6 (rel s q) in
  let n := normalize_vec 6 (rel s q) in (delta i j - n i * n j) / nv.
(** src/surfaces.cxx:340-369 *)
Definition i1_dqq (s q : vec) (T : R) : mat := fun i j =>
  match i, j with S a, S b => i1_xx s q a b | _, _ => 0 end.
(** src/surfaces.cxx:371-400 *)
Definition i1_dsq (s q : vec) (T : R) : mat := fun i j => match j with S b => i1_xx s q i b | O => 0 end.
(** src/surfaces.cxx:402-443 *)
Definition i1_dqs (s q : vec) (T : R) : mat := fun i j =>
  match i with
  | S a => let nv := norm2 6 (rel s q) in let n := normalize_vec 6 (rel s q) in (delta a j - iv a * jv j - n a * n j) / nv
  | O => 0
  end.
(** src/surfaces.cxx:216-443 *)
Definition IsoKinJ2I1 (h l : R -> R) : surface :=
  {| ys_n := 7; ys_f := i1_f h l; ys_ds := i1_ds h l; ys_dq := i1_dq; ys_dss := i1_dss h l; ys_dqq := i1_dqq; ys_dsq := i1_dsq; ys_dqs := i1_dqs |}.

(** ** IsoFunction<BT>: include/surfaces.h:60-165 *)
Definition expand_hist (q : vec) : vec := fun i => match i with O => q 0%nat | _ => 0 end.
(** include/surfaces.h:60-220 *)
Definition IsoFunction (b : surface) : surface :=
  {| ys_n := 1;
     ys_f := fun s q T => ys_f b s (expand_hist q) T;
     ys_ds := fun s q T => ys_ds b s (expand_hist q) T;
     ys_dq := fun s q T i => ys_dq b s (expand_hist q) T 0%nat;
     ys_dss := fun s q T => ys_dss b s (expand_hist q) T;
     ys_dqq := fun s q T i j => ys_dqq b s (expand_hist q) T 0%nat 0%nat;
     ys_dsq := fun s q T i j => ys_dsq b s (expand_hist q) T i 0%nat;
     ys_dqs := fun s q T i j => ys_dqs b s (expand_hist q) T 0%nat j |}.
(** include/surfaces.h:225-229 *)
Definition IsoJ2 : surface := IsoFunction IsoKinJ2.
(** include/surfaces.h:298-302 *)
Definition IsoJ2I1 (h l : R -> R) : surface := IsoFunction (IsoKinJ2I1 h l).

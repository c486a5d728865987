(** What pole figures mean, in terms of vectors and rotations only. *)
From Verif Require Import Base.
From Verif Require Import RotModel RotSpec CrystSpec.

(** the vector, by its three components, occurs in the list *)
Definition listed (v : vec) (l : list vec) : Prop := exists u, In u l /\ veq 3 u v.
(** two lists show the same points *)
Definition same_points (a b : list vec) : Prop := forall v, listed v a <-> listed v b.
(** two coordinates, as a squared length and a squared distance *)
Definition len2 (p : R * R) : R := fst p * fst p + snd p * snd p.
Definition dist2 (p q : R * R) : R := (fst p - fst q) * (fst p - fst q) + (snd p - snd q) * (snd p - snd q).
(** the mirror image in the plane of the plot *)
Definition mirrored (v w : vec) : Prop := w 0%nat = v 0%nat /\ w 1%nat = v 1%nat /\ w 2%nat = - v 2%nat.
(** the point of the unit sphere at height z and azimuth t *)
Definition on_sphere (z t : R) (v : vec) : Prop :=
  v 0%nat = sqrt (1 - z * z) * cos t /\ v 1%nat = sqrt (1 - z * z) * sin t /\ v 2%nat = z.
(** the cone over the triangle with the given corners: nonnegative combinations *)
Definition in_cone (a b c p : vec) : Prop :=
  exists x y z, 0 <= x /\ 0 <= y /\ 0 <= z /\ forall k, (k < 3)%nat -> p k = x * a k + y * b k + z * c k.
(** six times the volume spanned, positive for a right handed triple *)
Definition triple (a b c : vec) : R := ndot a (ncross b c).
(** a combination with positive weights *)
Definition in_open_cone (a b c p : vec) : Prop :=
  exists x y z, 0 < x /\ 0 < y /\ 0 < z /\ forall k, (k < 3)%nat -> p k = x * a k + y * b k + z * c k.
(** the three components *)
Definition comps (v : vec) : R * R * R := (v 0%nat, v 1%nat, v 2%nat).
(** images that are equal or further apart than the tolerance *)
Definition images_apart (ops : list quat) (p : vec) : Prop :=
  forall R S, In R ops -> In S ops -> near (apply_v R p) (apply_v S p) -> veq 3 (apply_v R p) (apply_v S p).
(** every sample operator is one of the crystal's *)
Definition contained (ssym ops : list quat) : Prop := forall S, In S ssym -> exists R, In R ops /\ same_turn R S.
(** strictly between [001], [101] and [111] *)
Definition open_wedge (t : R * R * R) : Prop := let '(x, y, z) := t in 0 < y /\ y < x /\ x < z.

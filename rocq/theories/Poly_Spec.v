(** Vocabulary for polygons and polyhedra, independent of the model's helpers. *)
From Coq Require Import QArith Qabs ZArith List.
From Verif Require Import Prelude Vec Seg_Model Seg_Spec Face_Spec Grid_Spec Poly_Model.
Import ListNotations.
Open Scope Q_scope.

(** All points lie in one plane. *)
Definition planar (vs : list coord) : Prop :=
  exists n c, ~ n =v= vzero /\ forall v, In v vs -> dot n v == c.

(** Somewhere three successive points span a parallelogram whose area exceeds the machine epsilon. *)
Definition visible (vs : list coord) : Prop :=
  exists l a b c r, vs = l ++ a :: b :: c :: r /\
    real_eps * real_eps < norm2 (cross (vsub b a) (vsub c a)).

(** The closed polyline through the given corners. *)
Definition closed_polyline (corners : list coord) : list coord := corners ++ firstn 1 corners.

(** The volume enclosed by oriented polygons, by the divergence theorem, seen from the point r. *)
Definition enclosed (r : coord) (polys : list (list coord)) : Q :=
  (1 # 3) * qsum (map (fun l => dot (vsub (hd vzero l) r) (area_vector l)) polys).

(** Three points span a parallelogram whose area exceeds the machine epsilon. *)
Definition wide (a b c : coord) : Prop := real_eps * real_eps < norm2 (cross (vsub b a) (vsub c a)).

(** The first three corners of a face given by vertex numbers are [wide]. *)
Definition wide_face (pos : Z -> coord) (f : list Z) : Prop :=
  match f with a :: b :: c :: _ => wide (pos a) (pos b) (pos c) | _ => False end.

(** The polyhedron made by adding, one after the other, the closed faces through the given vertices, each
    under its id. *)
Definition build (pos : Z -> coord) (faces : list (Z * list Z)) : polyhedron :=
  fold_left (fun p f => ph_add p (fst f) (pl_close (map pos (snd f)) 0)) faces ph_empty.

(** The six corners of a triangular prism with parallel edges, in the order of CGeoTriangularPrism. *)
Definition prism_corners (o u v w : coord) : list coord :=
  [o; vadd o u; vadd o v; vadd o w; vadd o (vadd u w); vadd o (vadd v w)].

(** A convex polygon, seen from the side to which n points: any three corners turn left. *)
Definition convex (n : coord) (corners : list coord) : Prop :=
  forall i j k, (i < j < k)%nat -> (k < length corners)%nat ->
    0 < dot n (cross (vsub (nth j corners vzero) (nth i corners vzero)) (vsub (nth k corners vzero) (nth i corners vzero))).

(** [angle] orders pairs of directions like the angle between them: by cosine, here the signed square of
    the cosine. *)
Definition cosine2 (u v : coord) : Q := dot u v * Qabs (dot u v) / (norm2 u * norm2 v).
Definition orders_like_angle (angle : coord -> coord -> Q) : Prop :=
  forall u v u' v', angle u v < angle u' v' <-> cosine2 u' v' < cosine2 u v.

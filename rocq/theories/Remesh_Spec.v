(** Vocabulary for improving triangulated surfaces. *)
From Coq Require Import ZArith List Bool QArith Reals Qreals.
From Verif Require Import Prelude Vec ZMap Surf_Model Surf_Spec Remesh_Model.
Import ListNotations.
Open Scope Z_scope.

Definition same_point (a b : coord) : bool := Qeq_bool (cx a) (cx b) && Qeq_bool (cy a) (cy b) && Qeq_bool (cz a) (cz b).
(** How many edges of a facet run from [x] to [y]; the same for all facets of a surface; and how many more run from [x] to [y] than back. In a closed, consistently oriented surface
    this is 0 for all points; otherwise it tells the boundary. *)
Definition runs (s : surf) (x y : coord) (id : Z) : Z := fold_right Z.add 0 (map (fun k => if same_point (corner s id k) x && same_point (corner s id (k + 1)) y then 1 else 0) [0; 1; 2]).
Definition all_runs (s : surf) (x y : coord) : Z := fold_right Z.add 0 (map (runs s x y) (u_ids s)).
Definition net (s : surf) (x y : coord) : Z := all_runs s x y - all_runs s y x.
(** A facet is the triangle a, b, c, seen from the same side, whichever vertex is first. *)
Definition triangle_is (s : surf) (id : Z) (a b c : coord) : Prop := exists k, corner s id k =v= a /\ corner s id (k + 1) =v= b /\ corner s id (k + 2) =v= c.
(** A point is a vertex of the surface. *)
Definition vertex_of (s : surf) (p : coord) : Prop := exists id k, In id (u_ids s) /\ corner s id k =v= p.
(** The facets [a] and [b] with a common edge have been replaced by the two facets along the other diagonal of their quadrilateral, and the worse of the two has become better. *)
Definition exchanged (s s' : surf) (a b : Z) : Prop :=
  a <> b /\ In a (u_ids s) /\ In b (u_ids s) /\
  (exists p0 p1 p2 p3, triangle_is s a p0 p1 p2 /\ triangle_is s b p1 p0 p3 /\
     (triangle_is s' a p0 p3 p2 /\ triangle_is s' b p3 p1 p2 \/ triangle_is s' b p0 p3 p2 /\ triangle_is s' a p3 p1 p2)) /\
  (Rmin (quality (facet s a)) (quality (facet s b)) < Rmin (quality (facet s' a)) (quality (facet s' b)))%R.
(** The remembered normals belong to the facets. *)
Definition right (memo : zmap coord) (s : surf) : Prop := forall id n, zlookup id memo = Some n -> n = raw_normal (facet s id).
(** The facets lie almost in one plane, or the first has almost no area. *)
Definition nearly_flat (swap tiny : R) (s : surf) (a b : Z) : Prop :=
  (normal_angle (raw_normal (facet s a)) (raw_normal (facet s b)) < swap)%R \/ (half_length (raw_normal (facet s a)) < tiny)%R.

(** Going around the vertex at corner [k] of facet [id]: the facet across the edge starting there, at its corner in the same place, and so on. *)
Inductive around (s : surf) (id k : Z) : Z -> Z -> Prop :=
  | around_start : around s id k id k
  | around_next : forall nb l, around s id k nb l -> across s nb l <> -1 -> around s id k (across s nb l) (apart s nb l + 2).
(** No facet is met at two of its corners. *)
Definition simple_fans (s : surf) : Prop := forall id k k', In id (u_ids s) -> around s id k id k' -> k mod 3 = k' mod 3.

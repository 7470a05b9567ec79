(** Properties of cells, circles and spheres (C31, C34, C62-C64). *)
From Coq Require Import QArith Qabs ZArith List Lia Lqa Bool.
From Verif Require Import Prelude Vec Box_Model Box_Spec Seg_Model Face_Spec Grid_Model Grid_Spec Poly_Model Cell_Model Cell_Proofs.
Import ListNotations.
Open Scope Q_scope.

(** ** C31 *)

(** The six tetrahedra of a parallelepiped: all of one sixth of its volume. *)
Theorem C31_hexahedron : forall o u v w,
  qsum (map geo_tet_volume (hex_decimate (corners o u v w))) == geo_hex_volume (corners o u v w) /\
  Forall (fun t => geo_tet_volume t == (1#6) * geo_hex_volume (corners o u v w)) (hex_decimate (corners o u v w)).
Proof. exact hex_decimate_ok. Qed.
Print Assumptions C31_hexahedron.

(** A point is a combination of the corners of a tetrahedron with coefficients that satisfy [pos] and add up to 1. *)
Definition combination (pos : Q -> Prop) (t : list coord) (p : coord) : Prop :=
  exists t0 t1 t2 t3 a b c d, t = [t0; t1; t2; t3] /\ pos a /\ pos b /\ pos c /\ pos d /\ a + b + c + d == 1 /\
    p =v= vadd (vadd (vscale a t0) (vscale b t1)) (vadd (vscale c t2) (vscale d t3)).
Lemma independent u v w x y z : ~ dot u (cross v w) == 0 -> vadd (vadd (vscale x u) (vscale y v)) (vscale z w) =v= vzero -> x == 0 /\ y == 0 /\ z == 0.
Proof.
  intros D (Ex & Ey & Ez). cbn in Ex, Ey, Ez.
  assert (K : forall k, k * dot u (cross v w) == 0 -> k == 0) by (intros k Hk; apply Qmult_integral in Hk; destruct Hk; [assumption|contradiction]).
  split; [|split]; apply K; unfold dot, cross; cbn.
  - setoid_replace (x * (cx u * (cy v * cz w - cz v * cy w) + cy u * (cz v * cx w - cx v * cz w) + cz u * (cx v * cy w - cy v * cx w)))
      with ((x * cx u + y * cx v + z * cx w) * (cy v * cz w - cz v * cy w) + (x * cy u + y * cy v + z * cy w) * (cz v * cx w - cx v * cz w) + (x * cz u + y * cz v + z * cz w) * (cx v * cy w - cy v * cx w)) by ring.
    rewrite Ex, Ey, Ez. ring.
  - setoid_replace (y * (cx u * (cy v * cz w - cz v * cy w) + cy u * (cz v * cx w - cx v * cz w) + cz u * (cx v * cy w - cy v * cx w)))
      with ((x * cx u + y * cx v + z * cx w) * (cy w * cz u - cz w * cy u) + (x * cy u + y * cy v + z * cy w) * (cz w * cx u - cx w * cz u) + (x * cz u + y * cz v + z * cz w) * (cx w * cy u - cy w * cx u)) by ring.
    rewrite Ex, Ey, Ez. ring.
  - setoid_replace (z * (cx u * (cy v * cz w - cz v * cy w) + cy u * (cz v * cx w - cx v * cz w) + cz u * (cx v * cy w - cy v * cx w)))
      with ((x * cx u + y * cx v + z * cx w) * (cy u * cz v - cz u * cy v) + (x * cy u + y * cy v + z * cy w) * (cz u * cx v - cx u * cz v) + (x * cz u + y * cz v + z * cz w) * (cx u * cy v - cy u * cx v)) by ring.
    rewrite Ex, Ey, Ez. ring.
Qed.
(** The six tetrahedra fill the parallelepiped, and no point is inside two of them. *)
Theorem C31_tiling : forall o u v w,
  (forall x y z, 0 <= x <= 1 -> 0 <= y <= 1 -> 0 <= z <= 1 ->
     exists t, In t (hex_decimate (corners o u v w)) /\ combination (fun a => 0 <= a) t (vadd o (vadd (vadd (vscale x u) (vscale y v)) (vscale z w)))) /\
  (~ dot u (cross v w) == 0 -> forall i j t t' p, nth_error (hex_decimate (corners o u v w)) i = Some t -> nth_error (hex_decimate (corners o u v w)) j = Some t' ->
     combination (fun a => 0 < a) t p -> combination (fun a => 0 < a) t' p -> i = j).
Proof.
  intros o u v w. split.
  - intros x y z Hx Hy Hz.
    assert (K : forall k t a b c d t0 t1 t2 t3, nth_error (hex_decimate (corners o u v w)) k = Some t -> t = [t0; t1; t2; t3] ->
              0 <= a -> 0 <= b -> 0 <= c -> 0 <= d -> a + b + c + d == 1 ->
              vadd o (vadd (vadd (vscale x u) (vscale y v)) (vscale z w)) =v= vadd (vadd (vscale a t0) (vscale b t1)) (vadd (vscale c t2) (vscale d t3)) ->
              exists t, In t (hex_decimate (corners o u v w)) /\ combination (fun a => 0 <= a) t (vadd o (vadd (vadd (vscale x u) (vscale y v)) (vscale z w)))).
    { intros k t a b c d t0 t1 t2 t3 Hk Et Ha Hb Hc Hd Hs Hp. exists t. split; [eapply nth_error_In; exact Hk|]. exists t0, t1, t2, t3, a, b, c, d. auto 10. }
    destruct (Qlt_le_dec (1 - x) y) as [H1|H1]; destruct (Qlt_le_dec y z) as [H2|H2]; destruct (Qlt_le_dec (1 - x) z) as [H3|H3]; try lra.
    + apply (K 5%nat _ (1 - z) (z - y) (y - (1 - x)) (1 - x) _ _ _ _ eq_refl eq_refl); try lra. unfold veq; cbn; (split; [|split]; ring).
    + apply (K 4%nat _ (1 - y) (z - (1 - x)) (y - z) (1 - x) _ _ _ _ eq_refl eq_refl); try lra. unfold veq; cbn; (split; [|split]; ring).
    + apply (K 3%nat _ (1 - y) (y - (1 - x)) ((1 - x) - z) z _ _ _ _ eq_refl eq_refl); try lra. unfold veq; cbn; (split; [|split]; ring).
    + apply (K 2%nat _ (1 - z) ((1 - x) - y) (z - (1 - x)) y _ _ _ _ eq_refl eq_refl); try lra. unfold veq; cbn; (split; [|split]; ring).
    + apply (K 1%nat _ ((1 - x) - z) (z - y) x y _ _ _ _ eq_refl eq_refl); try lra. unfold veq; cbn; (split; [|split]; ring).
    + apply (K 0%nat _ ((1 - x) - y) x (y - z) z _ _ _ _ eq_refl eq_refl); try lra. unfold veq; cbn; (split; [|split]; ring).
  - intros D i j t t' p Hi Hj (t0 & t1 & t2 & t3 & a & b & c & d & -> & Ha & Hb & Hc & Hd & Hs & Hp) (s0 & s1 & s2 & s3 & a' & b' & c' & d' & -> & Ha' & Hb' & Hc' & Hd' & Hs' & Hp').
    (** coefficients of u, v, w of a point of either tetrahedron *)
    assert (K : forall x y z x' y' z', p =v= vadd o (vadd (vadd (vscale x u) (vscale y v)) (vscale z w)) -> p =v= vadd o (vadd (vadd (vscale x' u) (vscale y' v)) (vscale z' w)) -> x == x' /\ y == y' /\ z == z').
    { intros x y z x' y' z' (A1 & A2 & A3) (B1 & B2 & B3). cbn in A1, A2, A3, B1, B2, B3. destruct (independent u v w (x - x') (y - y') (z - z') D) as (E1 & E2 & E3).
      - unfold veq. cbn. (split; [|split]; lra).
      - (split; [|split]; lra). }
    assert (F : exists x y z, p =v= vadd o (vadd (vadd (vscale x u) (vscale y v)) (vscale z w)) /\
              match i with 0%nat => z < y /\ y < 1 - x | 1%nat => y < z /\ z < 1 - x | 2%nat => y < 1 - x /\ 1 - x < z | 3%nat => z < 1 - x /\ 1 - x < y | 4%nat => 1 - x < z /\ z < y | 5%nat => 1 - x < y /\ y < z | _ => False end).
    { destruct i as [|[|[|[|[|[|i]]]]]]; cbn in Hi; [| | | | | |destruct i; discriminate]; injection Hi as <- <- <- <-.
      - exists b, (c + d), d. split; [|lra]. destruct Hp as (P1 & P2 & P3). cbn in P1, P2, P3. assert (E : a == 1 - b - c - d) by lra. unfold veq; cbn. rewrite P1, P2, P3, E. (split; [|split]; ring).
      - exists c, d, (b + d). split; [|lra]. destruct Hp as (P1 & P2 & P3). cbn in P1, P2, P3. assert (E : a == 1 - b - c - d) by lra. unfold veq; cbn. rewrite P1, P2, P3, E. (split; [|split]; ring).
      - exists (a + c), d, (b + c + d). split; [|lra]. destruct Hp as (P1 & P2 & P3). cbn in P1, P2, P3. assert (E : a == 1 - b - c - d) by lra. unfold veq; cbn. rewrite P1, P2, P3, E. (split; [|split]; ring).
      - exists (a + b), (b + c + d), d. split; [|lra]. destruct Hp as (P1 & P2 & P3). cbn in P1, P2, P3. assert (E : a == 1 - b - c - d) by lra. unfold veq; cbn. rewrite P1, P2, P3, E. (split; [|split]; ring).
      - exists (a + b + c), (b + c + d), (b + d). split; [|lra]. destruct Hp as (P1 & P2 & P3). cbn in P1, P2, P3. assert (E : a == 1 - b - c - d) by lra. unfold veq; cbn. rewrite P1, P2, P3, E. (split; [|split]; ring).
      - exists (a + b + c), (c + d), (b + c + d). split; [|lra]. destruct Hp as (P1 & P2 & P3). cbn in P1, P2, P3. assert (E : a == 1 - b - c - d) by lra. unfold veq; cbn. rewrite P1, P2, P3, E. (split; [|split]; ring). }
    assert (F' : exists x y z, p =v= vadd o (vadd (vadd (vscale x u) (vscale y v)) (vscale z w)) /\
              match j with 0%nat => z < y /\ y < 1 - x | 1%nat => y < z /\ z < 1 - x | 2%nat => y < 1 - x /\ 1 - x < z | 3%nat => z < 1 - x /\ 1 - x < y | 4%nat => 1 - x < z /\ z < y | 5%nat => 1 - x < y /\ y < z | _ => False end).
    { destruct j as [|[|[|[|[|[|j]]]]]]; cbn in Hj; [| | | | | |destruct j; discriminate]; injection Hj as <- <- <- <-.
      - exists b', (c' + d'), d'. split; [|lra]. destruct Hp' as (P1 & P2 & P3). cbn in P1, P2, P3. assert (E : a' == 1 - b' - c' - d') by lra. unfold veq; cbn. rewrite P1, P2, P3, E. (split; [|split]; ring).
      - exists c', d', (b' + d'). split; [|lra]. destruct Hp' as (P1 & P2 & P3). cbn in P1, P2, P3. assert (E : a' == 1 - b' - c' - d') by lra. unfold veq; cbn. rewrite P1, P2, P3, E. (split; [|split]; ring).
      - exists (a' + c'), d', (b' + c' + d'). split; [|lra]. destruct Hp' as (P1 & P2 & P3). cbn in P1, P2, P3. assert (E : a' == 1 - b' - c' - d') by lra. unfold veq; cbn. rewrite P1, P2, P3, E. (split; [|split]; ring).
      - exists (a' + b'), (b' + c' + d'), d'. split; [|lra]. destruct Hp' as (P1 & P2 & P3). cbn in P1, P2, P3. assert (E : a' == 1 - b' - c' - d') by lra. unfold veq; cbn. rewrite P1, P2, P3, E. (split; [|split]; ring).
      - exists (a' + b' + c'), (b' + c' + d'), (b' + d'). split; [|lra]. destruct Hp' as (P1 & P2 & P3). cbn in P1, P2, P3. assert (E : a' == 1 - b' - c' - d') by lra. unfold veq; cbn. rewrite P1, P2, P3, E. (split; [|split]; ring).
      - exists (a' + b' + c'), (c' + d'), (b' + c' + d'). split; [|lra]. destruct Hp' as (P1 & P2 & P3). cbn in P1, P2, P3. assert (E : a' == 1 - b' - c' - d') by lra. unfold veq; cbn. rewrite P1, P2, P3, E. (split; [|split]; ring). }
    destruct F as (x & y & z & G & O). destruct F' as (x' & y' & z' & G' & O'). destruct (K _ _ _ _ _ _ G G') as (E1 & E2 & E3).
    destruct i as [|[|[|[|[|[|i]]]]]]; destruct j as [|[|[|[|[|[|j]]]]]]; try reflexivity; exfalso; try contradiction; lra.
Qed.
Print Assumptions C31_tiling.

(** The two triangles of any quadrilateral, planar or not. *)
Theorem C31_quadrilateral : forall a b c d,
  vsum (map area_vector (quad_decimate [a; b; c; d])) =v= area_vector [a; b; c; d] /\
  vscale 2 (area_vector [a; b; c; d]) =v= geo_quad_normal [a; b; c; d].
Proof. exact quad_decimate_ok. Qed.
Print Assumptions C31_quadrilateral.

Theorem C31_tetrahedron_swaps : forall a b c d,
  geo_tet_volume [b; a; c; d] == - geo_tet_volume [a; b; c; d] /\
  geo_tet_volume [a; c; b; d] == - geo_tet_volume [a; b; c; d] /\
  geo_tet_volume [a; b; d; c] == - geo_tet_volume [a; b; c; d].
Proof. exact tet_volume_swaps. Qed.
Print Assumptions C31_tetrahedron_swaps.

Theorem C31_tetrahedron_translation : forall a b c d t,
  geo_tet_volume [vadd a t; vadd b t; vadd c t; vadd d t] == geo_tet_volume [a; b; c; d].
Proof. exact tet_volume_shift. Qed.
Print Assumptions C31_tetrahedron_translation.

(** Zero exactly for four points of a plane. *)
Theorem C31_tetrahedron_flat : forall a b c d, geo_tet_volume [a; b; c; d] == 0 <->
  exists n k, ~ n =v= vzero /\ dot n a == k /\ dot n b == k /\ dot n c == k /\ dot n d == k.
Proof. exact tet_volume_flat. Qed.
Print Assumptions C31_tetrahedron_flat.

(** The value: minus one sixth of the triple product of the edges at the first vertex, that is, positive
    for left-handed vertex order. *)
Theorem C31_tetrahedron_value : forall a b c d,
  geo_tet_volume [a; b; c; d] == - (1#6) * dot (vsub d a) (cross (vsub b a) (vsub c a)).
Proof. exact tet_volume_triple. Qed.
Print Assumptions C31_tetrahedron_value.

Example C31_case : geo_hex_volume (corners (Coord 1 1 1) (Coord 0 2 0) (Coord 3 0 0) (Coord 0 1 4)) == 24 /\
  map Qred (map geo_tet_volume (hex_decimate (corners (Coord 1 1 1) (Coord 0 2 0) (Coord 3 0 0) (Coord 0 1 4)))) = [4; 4; 4; 4; 4; 4].
Proof. split; vm_compute; reflexivity. Qed.

(** A twisted hexahedron (opposite faces not parallel) : the tetrahedra do not add up to volume(). *)
Theorem C31_general_hexahedron_refuted : exists vs, length vs = 8%nat /\
  ~ qsum (map geo_tet_volume (hex_decimate vs)) == geo_hex_volume vs.
Proof.
  exists [Coord 0 0 0; Coord 0 1 0; Coord 2 1 0; Coord 1 0 0; Coord 0 0 1; Coord 0 1 1; Coord 2 1 1; Coord 1 0 1].
  split; [reflexivity|]. vm_compute. discriminate.
Qed.
Print Assumptions C31_general_hexahedron_refuted.

(** ** C62 *)

(** A tetrahedron of positive volume contains exactly the convex combinations of its vertices, whatever the
    tolerance. *)
Theorem C62_contains : forall a b c d p tol,
  finite a -> finite b -> finite c -> finite d -> 0 <= tol -> 0 < geo_tet_volume [a; b; c; d] ->
  (tet_contains [a; b; c; d] p tol = true <-> in_hull [a; b; c; d] p).
Proof. exact tet_contains_iff. Qed.
Print Assumptions C62_contains.

(** A tetrahedron of negative or zero volume contains nothing. *)
Theorem C62_contains_never : forall a b c d p tol, geo_tet_volume [a; b; c; d] <= 0 ->
  tet_contains [a; b; c; d] p tol = false.
Proof. exact tet_contains_never. Qed.
Print Assumptions C62_contains_never.

Example C62_case : let a := vzero in let b := Coord 0 1 0 in let c := Coord 1 0 0 in let d := Coord 0 0 1 in
  finite a /\ finite b /\ finite c /\ finite d /\ 0 < geo_tet_volume [a; b; c; d] /\
  tet_contains [a; b; c; d] (Coord (1#4) (1#4) (1#4)) 0 = true /\
  tet_contains [a; b; c; d] (Coord (1#2) (1#2) (1#2)) 0 = false.
Proof.
  cbv zeta. unfold finite, in_box. repeat match goal with |- _ /\ _ => split end; vm_compute; try reflexivity; intros X; discriminate X.
Qed.

(** Right-handed vertex order: not even the vertices are contained. *)
Theorem C62_orientation_refuted : exists a b c d p tol, 0 <= tol /\ in_hull [a; b; c; d] p /\
  tet_contains [a; b; c; d] p tol = false.
Proof.
  exists vzero, (Coord 1 0 0), (Coord 0 1 0), (Coord 0 0 1), (Coord (1#4) (1#4) (1#4)), (1#10).
  split; [discriminate|]. split; [|vm_compute; reflexivity].
  apply in_hull4. exists (1#4), (1#4), (1#4), (1#4). split; [repeat split; discriminate|]. split; [reflexivity|]. repeat split; reflexivity.
Qed.
Print Assumptions C62_orientation_refuted.

(** ** C34 *)

(** Four points spanning a tetrahedron of more than tol^2 / 6: all have the same squared distance, the
    returned one, from the centre. *)
Theorem C34_sphere : forall p1 p2 p3 p4 tol, tol * tol < Qabs (6 * geo_tet_volume [p1; p2; p3; p4]) ->
  forall p, In p [p1; p2; p3; p4] ->
    norm2 (vsub p (fst (sphere_of p1 p2 p3 p4 tol))) == snd (sphere_of p1 p2 p3 p4 tol).
Proof. exact sphere_through. Qed.
Print Assumptions C34_sphere.

(** Otherwise the sphere of radius 0 at the origin. *)
Theorem C34_flat : forall p1 p2 p3 p4 tol, Qabs (6 * geo_tet_volume [p1; p2; p3; p4]) <= tol * tol ->
  sphere_of p1 p2 p3 p4 tol = (vzero, 0).
Proof. exact sphere_flat. Qed.
Print Assumptions C34_flat.

Example C34_case :
  let s := sphere_of (Coord 1 0 0) (Coord 3 0 0) (Coord 2 1 0) (Coord 2 0 1) (1#1000) in
  (1#1000) * (1#1000) < Qabs (6 * geo_tet_volume [Coord 1 0 0; Coord 3 0 0; Coord 2 1 0; Coord 2 0 1]) /\
  fst s =v= Coord 2 0 0 /\ snd s == 1.
Proof. cbv zeta. split; [vm_compute; reflexivity|]. split; [repeat split; vm_compute; reflexivity|vm_compute; reflexivity]. Qed.

(** ** C63 *)

(** Three points of a plane z = const that are not collinear: if the centre is defined, all three have the
    returned squared distance from it. *)
Theorem C63_circle : forall p1 p2 p3 c r2, cz p2 == cz p1 -> cz p3 == cz p1 ->
  ~ cz (cross (vsub p2 p1) (vsub p3 p2)) == 0 ->
  circle_of p1 p2 p3 0 = Ok (c, r2) -> forall p, In p [p1; p2; p3] -> norm2 (vsub p c) == r2.
Proof. exact circle_same. Qed.
Print Assumptions C63_circle.

(** It is defined when the first two sides are not vertical and the first one is not horizontal. *)
Theorem C63_circle_defined : forall p1 p2 p3, ~ cx p1 == cx p2 -> ~ cx p2 == cx p3 -> ~ cy p1 == cy p2 ->
  exists r, circle_of p1 p2 p3 0 = Ok r.
Proof. exact circle_defined. Qed.
Print Assumptions C63_circle_defined.

Example C63_case : exists c r2, circle_of (Coord 0 0 5) (Coord 1 1 5) (Coord 2 0 5) 0 = Ok (c, r2) /\
  c =v= Coord 1 0 5 /\ r2 == 1.
Proof. eexists _, _. split; [vm_compute; reflexivity|]. split; [repeat split; vm_compute; reflexivity|vm_compute; reflexivity]. Qed.

(** A right-angled triangle with a horizontal first side: division by zero. *)
Theorem C63_axis_parallel_refuted : exists p1 p2 p3, ~ cz (cross (vsub p2 p1) (vsub p3 p2)) == 0 /\
  circle_of p1 p2 p3 0 = UB.
Proof. exists (Coord 0 0 0), (Coord 1 0 0), (Coord 1 1 0). split; [vm_compute; discriminate|vm_compute; reflexivity]. Qed.
Print Assumptions C63_axis_parallel_refuted.

(** Points of a plane that is not z = const: the points are not on the circle. *)
Theorem C63_space_refuted : exists p1 p2 p3 c r2, circle_of p1 p2 p3 0 = Ok (c, r2) /\
  ~ cz (cross (vsub p2 p1) (vsub p3 p2)) == 0 /\ ~ norm2 (vsub p2 c) == r2.
Proof.
  eexists (Coord 0 0 0), (Coord 1 1 1), (Coord 2 0 0), _, _.
  split; [vm_compute; reflexivity|]. split; vm_compute; discriminate.
Qed.
Print Assumptions C63_space_refuted.

(** ** C64 *)

(** The bounding box of a sphere at the origin contains every point that the sphere contains. *)
Theorem C64_sphere_box : forall r p tol, 0 <= r -> r <= real_max -> 0 <= tol ->
  sphere_contains vzero r p 0 = true -> box_contains (sphere_box vzero r) p tol = true.
Proof. exact sphere_box_origin. Qed.
Print Assumptions C64_sphere_box.

Example C64_case : 0 <= 5 /\ 5 <= real_max /\ sphere_contains vzero 5 (Coord 3 4 0) 0 = true.
Proof. repeat split; vm_compute; try reflexivity; discriminate. Qed.

(** Elsewhere it does not even contain the centre. *)
Theorem C64_centre_refuted : exists c r, sphere_contains c r c 0 = true /\ box_contains (sphere_box c r) c 0 = false.
Proof. exists (Coord 10 0 0), 1. split; vm_compute; reflexivity. Qed.
Print Assumptions C64_centre_refuted.

(** Lemmas about cells, circles and spheres. *)
From Coq Require Import QArith Qabs ZArith List Bool Lia Lqa Setoid.
From Verif Require Import Prelude Vec Box_Model Box_Spec Box_Proofs Seg_Model Seg_Proofs Face_Spec Grid_Model Grid_Spec Poly_Model Poly_Proofs Poly_Clip Cell_Model.
Import ListNotations.
Open Scope Q_scope.

Ltac qring := unfold det_points, det3, det_rows, det4, minor, norm2, dot; cbn [vadd vsub vopp vscale cross vzero cx cy cz fst snd]; ring.

(** ** Decomposition *)
Lemma hex_decimate_ok o u v w :
  qsum (map geo_tet_volume (hex_decimate (corners o u v w))) == geo_hex_volume (corners o u v w) /\
  Forall (fun t => geo_tet_volume t == (1#6) * geo_hex_volume (corners o u v w)) (hex_decimate (corners o u v w)).
Proof.
  set (g := geo_hex_volume (corners o u v w)).
  assert (F : Forall (fun t => geo_tet_volume t == (1#6) * g) (hex_decimate (corners o u v w))).
  { unfold hex_decimate, corners, g. cbn [map vert nth].
    repeat (constructor; [unfold geo_tet_volume, geo_hex_volume, corners, det3, dot; cbn [vadd vsub vopp vscale cross vzero cx cy cz]; field|]). constructor. }
  split; [|exact F]. unfold hex_decimate in *. cbn [map] in *.
  repeat match goal with H : Forall _ (_ :: _) |- _ => inversion H; clear H; subst end.
  unfold qsum. cbn [fold_right map].
  repeat match goal with H : geo_tet_volume _ == _ |- _ => rewrite H; clear H end. ring.
Qed.

Lemma quad_decimate_ok a b c d :
  vsum (map area_vector (quad_decimate [a; b; c; d])) =v= area_vector [a; b; c; d] /\
  vscale 2 (area_vector [a; b; c; d]) =v= geo_quad_normal [a; b; c; d].
Proof.
  split.
  - unfold quad_decimate, vsum. cbn [map vert nth fold_right]. unfold area_vector. cbn [cycle app combine map fst snd fold_right]. vring.
  - unfold area_vector, geo_quad_normal. cbn [cycle app combine map fst snd fold_right].
    repeat split; cbn [vadd vsub vopp vscale cross vzero cx cy cz]; field.
Qed.

Lemma tet_volume_swaps a b c d :
  geo_tet_volume [b; a; c; d] == - geo_tet_volume [a; b; c; d] /\
  geo_tet_volume [a; c; b; d] == - geo_tet_volume [a; b; c; d] /\
  geo_tet_volume [a; b; d; c] == - geo_tet_volume [a; b; c; d].
Proof. unfold geo_tet_volume, det3, dot. cbn [cross cx cy cz]. repeat split; field. Qed.

Lemma tet_volume_shift a b c d t :
  geo_tet_volume [vadd a t; vadd b t; vadd c t; vadd d t] == geo_tet_volume [a; b; c; d].
Proof. unfold geo_tet_volume, det3, dot. cbn [cross vadd cx cy cz]. field. Qed.

Lemma tet_volume_triple a b c d :
  geo_tet_volume [a; b; c; d] == - (1#6) * dot (vsub d a) (cross (vsub b a) (vsub c a)).
Proof. unfold geo_tet_volume, det3, dot. cbn [cross vsub cx cy cz]. field. Qed.

(** Four points lie in a plane exactly when the volume vanishes. *)
Lemma collinear_normal (u v : coord) : cross u v =v= vzero -> exists n, ~ n =v= vzero /\ dot n u == 0 /\ dot n v == 0.
Proof.
  intros H.
  assert (P : forall a : coord, exists n, ~ n =v= vzero /\ dot n a == 0).
  { intros a. destruct (Qeq_dec (cx a) 0) as [E|E].
    - exists (Coord 1 0 0). split; [intros (Z & _); cbn in Z; lra|]. unfold dot. cbn [cx cy cz]. lra.
    - exists (Coord (cy a) (- cx a) 0). split; [intros (_ & Z & _); cbn [vzero cx cy cz] in Z; apply E; lra|]. unfold dot. cbn [cx cy cz]. ring. }
  destruct (coord_eqb u vzero) eqn:Eu.
  - apply Seg_Lists.coord_eqb_iff in Eu. destruct (P v) as (n & Hn & Hv). exists n. split; [exact Hn|]. split; [|exact Hv].
    rewrite Eu. unfold dot. cbn [vzero cx cy cz]. ring.
  - assert (Hu : ~ u =v= vzero) by (intros Z; apply Seg_Lists.coord_eqb_iff in Z; congruence).
    destruct (P u) as (n & Hn & Hnu). exists n. split; [exact Hn|]. split; [exact Hnu|].
    pose proof (parallel_ratio v u (drop_axis u) H (drop_axis_nonzero u Hu)) as R. rewrite R, dot_vscale, Hnu. ring.
Qed.

Lemma tet_volume_flat a b c d : geo_tet_volume [a; b; c; d] == 0 <->
  exists n k, ~ n =v= vzero /\ dot n a == k /\ dot n b == k /\ dot n c == k /\ dot n d == k.
Proof.
  rewrite tet_volume_triple. set (u := vsub b a). set (v := vsub c a). set (w := vsub d a). split.
  - intros H. assert (H0 : dot w (cross u v) == 0) by lra. clear H.
    assert (N : exists n, ~ n =v= vzero /\ dot n u == 0 /\ dot n v == 0 /\ dot n w == 0).
    { destruct (coord_eqb (cross u v) vzero) eqn:E.
      - apply Seg_Lists.coord_eqb_iff in E. destruct (coord_eqb u vzero) eqn:Eu.
        + apply Seg_Lists.coord_eqb_iff in Eu.
          destruct (coord_eqb (cross v w) vzero) eqn:Ev.
          * apply Seg_Lists.coord_eqb_iff in Ev. destruct (collinear_normal v w Ev) as (n & Hn & H1 & H2).
            exists n. split; [exact Hn|]. split; [|auto]. rewrite Eu. unfold dot. cbn [vzero cx cy cz]. ring.
          * exists (cross v w). split; [intros Z; apply Seg_Lists.coord_eqb_iff in Z; congruence|].
            split; [rewrite Eu; unfold dot; cbn [vzero cx cy cz]; ring|]. split; unfold dot; cbn [cross cx cy cz]; ring.
        + assert (Hu : ~ u =v= vzero) by (intros Z; apply Seg_Lists.coord_eqb_iff in Z; congruence).
          pose proof (parallel_ratio v u (drop_axis u) E (drop_axis_nonzero u Hu)) as R.
          destruct (coord_eqb (cross u w) vzero) eqn:Ew.
          * apply Seg_Lists.coord_eqb_iff in Ew. destruct (collinear_normal u w Ew) as (n & Hn & H1 & H2).
            exists n. split; [exact Hn|]. split; [exact H1|]. split; [|exact H2]. rewrite R, dot_vscale, H1. ring.
          * exists (cross u w). split; [intros Z; apply Seg_Lists.coord_eqb_iff in Z; congruence|].
            assert (U : dot (cross u w) u == 0) by (unfold dot; cbn [cross cx cy cz]; ring).
            split; [exact U|]. split; [rewrite R, dot_vscale, U; ring|unfold dot; cbn [cross cx cy cz]; ring].
      - exists (cross u v). split; [intros Z; apply Seg_Lists.coord_eqb_iff in Z; congruence|].
        split; [unfold dot; cbn [cross cx cy cz]; ring|]. split; [unfold dot; cbn [cross cx cy cz]; ring|].
        rewrite dot_comm. exact H0. }
    destruct N as (n & Hn & H1 & H2 & H3). unfold u, v, w in *. rewrite dot_vsub in H1, H2, H3.
    exists n, (dot n a). split; [exact Hn|]. split; [reflexivity|]. split; [lra|]. split; lra.
  - intros (n & k & Hn & Ha & Hb & Hc & Hd).
    assert (P1 : perp n u) by (unfold perp, u; rewrite dot_vsub; lra).
    assert (P2 : perp n v) by (unfold perp, v; rewrite dot_vsub; lra).
    assert (P3 : dot n w == 0) by (unfold w; rewrite dot_vsub; lra).
    pose proof (cross_perp n u v P1 P2) as C.
    pose proof (parallel_ratio (cross u v) n (drop_axis n) C (drop_axis_nonzero n Hn)) as R.
    rewrite R, dot_vscale, dot_comm, P3. ring.
Qed.

(** ** Points in a tetrahedron *)
Lemma cramer a b c d p : ~ det_points a b c d == 0 ->
  let D := det_points a b c d in
  let s := det_points p b c d / D in let t := det_points a p c d / D in
  let u := det_points a b p d / D in let v := det_points a b c p / D in
  s + t + u + v == 1 /\ p =v= vadd (vscale s a) (vadd (vscale t b) (vadd (vscale u c) (vscale v d))).
Proof.
  intros H D s t u v. split.
  - unfold s, t, u, v, D. field_simplify_eq; [|exact H]. qring.
  - repeat split; cbn [vadd vscale cx cy cz]; unfold s, t, u, v, D; field_simplify_eq; try exact H; qring.
Qed.

Lemma det_comb a b c d s t u v : s + t + u + v == 1 ->
  let p := vadd (vscale s a) (vadd (vscale t b) (vadd (vscale u c) (vscale v d))) in
  det_points p b c d == s * det_points a b c d /\ det_points a p c d == t * det_points a b c d /\
  det_points a b p d == u * det_points a b c d /\ det_points a b c p == v * det_points a b c d.
Proof.
  intros H p.
  assert (Hs : s == 1 - t - u - v) by lra.
  assert (Ht : t == 1 - s - u - v) by lra.
  assert (Hu : u == 1 - s - t - v) by lra.
  assert (Hv : v == 1 - s - t - u) by lra.
  assert (G : forall x, x == x * (s + t + u + v)) by (intros; rewrite H; ring).
  unfold p. repeat split; unfold det_points, det3, dot; cbn [vadd vscale cross cx cy cz].
  - rewrite Hs. ring.
  - rewrite Ht. ring.
  - rewrite Hu. ring.
  - rewrite Hv. ring.
Qed.

Global Instance det_points_proper : Proper (veq ==> veq ==> veq ==> veq ==> Qeq) det_points.
Proof.
  intros a a' (A1 & A2 & A3) b b' (B1 & B2 & B3) c c' (C1 & C2 & C3) d d' (D1 & D2 & D3).
  unfold det_points, det3, dot. cbn [cross cx cy cz].
  rewrite A1, A2, A3, B1, B2, B3, C1, C2, C3, D1, D2, D3. reflexivity.
Qed.

Lemma in_hull4 a b c d p : in_hull [a; b; c; d] p <->
  exists s t u v, (0 <= s /\ 0 <= t /\ 0 <= u /\ 0 <= v) /\ s + t + u + v == 1 /\
    p =v= vadd (vscale s a) (vadd (vscale t b) (vadd (vscale u c) (vscale v d))).
Proof.
  split.
  - intros (ws & L & P & S & E). destruct ws as [|s [|t [|u [|v [|? ?]]]]]; try discriminate L.
    exists s, t, u, v. split; [repeat apply conj; apply P; cbn; tauto|].
    unfold qsum in S. cbn [fold_right] in S. split; [lra|].
    rewrite E. unfold vsum. cbn [combine map fold_right fst snd]. vring.
  - intros (s & t & u & v & P & S & E). exists [s; t; u; v]. split; [reflexivity|].
    split; [intros x [<-|[<-|[<-|[<-|[]]]]]; tauto|]. split; [unfold qsum; cbn [fold_right]; lra|].
    rewrite E. unfold vsum. cbn [combine map fold_right fst snd]. vring.
Qed.

Lemma weighted_between s t u v a b c d lo hi : 0 <= s -> 0 <= t -> 0 <= u -> 0 <= v -> s + t + u + v == 1 ->
  lo <= a <= hi -> lo <= b <= hi -> lo <= c <= hi -> lo <= d <= hi ->
  lo <= s * a + (t * b + (u * c + v * d)) <= hi.
Proof.
  intros Hs Ht Hu Hv E [A1 A2] [B1 B2] [C1 C2] [D1 D2].
  assert (G : forall w x l, 0 <= w -> l <= x -> w * l <= w * x) by (intros; nra).
  pose proof (G s a lo Hs A1). pose proof (G t b lo Ht B1). pose proof (G u c lo Hu C1). pose proof (G v d lo Hv D1).
  pose proof (G s hi a Hs A2). pose proof (G t hi b Ht B2). pose proof (G u hi c Hu C2). pose proof (G v hi d Hv D2).
  assert (L : lo == s * lo + (t * lo + (u * lo + v * lo))).
  { transitivity ((s + t + u + v) * lo); [rewrite E; ring|ring]. }
  assert (M : hi == s * hi + (t * hi + (u * hi + v * hi))).
  { transitivity ((s + t + u + v) * hi); [rewrite E; ring|ring]. }
  split; lra.
Qed.

Lemma hull_in_box a b c d p tol : finite a -> finite b -> finite c -> finite d -> 0 <= tol ->
  in_hull [a; b; c; d] p -> box_contains (box_add_all [a; b; c; d]) p tol = true.
Proof.
  intros Fa Fb Fc Fd Ht Hh. apply contains_iff.
  assert (T : tight (box_add_all [a; b; c; d]) [a; b; c; d]).
  { apply box_tight; [discriminate|]. intros x [<-|[<-|[<-|[<-|[]]]]]; assumption. }
  destruct T as (Ti & _). set (B := box_add_all [a; b; c; d]) in *. clearbody B.
  pose proof (Ti a (or_introl eq_refl)) as Ba. pose proof (Ti b (or_intror (or_introl eq_refl))) as Bb.
  pose proof (Ti c (or_intror (or_intror (or_introl eq_refl)))) as Bc.
  pose proof (Ti d (or_intror (or_intror (or_intror (or_introl eq_refl))))) as Bd. clear Ti.
  apply in_hull4 in Hh. destruct Hh as (s & t & u & v & (Hs & Ht' & Hu & Hv) & S & E).
  destruct E as (E1 & E2 & E3). cbn [vadd vscale cx cy cz] in E1, E2, E3.
  destruct Ba as ((Ax & Ax') & (Ay & Ay') & (Az & Az')). destruct Bb as ((Bx & Bx') & (By & By') & (Bz & Bz')).
  destruct Bc as ((Cx & Cx') & (Cy & Cy') & (Cz & Cz')). destruct Bd as ((Dx & Dx') & (Dy & Dy') & (Dz & Dz')).
  unfold in_box_tol, in_box. cbn [vadd vsub cx cy cz].
  pose proof (weighted_between s t u v _ _ _ _ _ _ Hs Ht' Hu Hv S (conj Ax Ax') (conj Bx Bx') (conj Cx Cx') (conj Dx Dx')).
  pose proof (weighted_between s t u v _ _ _ _ _ _ Hs Ht' Hu Hv S (conj Ay Ay') (conj By By') (conj Cy Cy') (conj Dy Dy')).
  pose proof (weighted_between s t u v _ _ _ _ _ _ Hs Ht' Hu Hv S (conj Az Az') (conj Bz Bz') (conj Cz Cz') (conj Dz Dz')).
  lra.
Qed.

Lemma tet_contains_iff a b c d p tol :
  finite a -> finite b -> finite c -> finite d -> 0 <= tol -> 0 < geo_tet_volume [a; b; c; d] ->
  (tet_contains [a; b; c; d] p tol = true <-> in_hull [a; b; c; d] p).
Proof.
  intros Fa Fb Fc Fd Ht Hv.
  assert (Hd : 0 < det_points a b c d).
  { assert (det_points a b c d == 6 * geo_tet_volume [a; b; c; d]) by (unfold geo_tet_volume, det_points, det3, dot; cbn [cross cx cy cz]; field). lra. }
  unfold tet_contains. cbn [vert nth].
  destruct (cramer a b c d p ltac:(lra)) as (S & E).
  set (D := det_points a b c d) in *.
  set (s := det_points p b c d / D) in *. set (t := det_points a p c d / D) in *.
  set (u := det_points a b p d / D) in *. set (v := det_points a b c p / D) in *. split.
  - destruct (box_contains _ p tol); [|discriminate]. cbn [negb].
    destruct (Qle_bool D 0); [discriminate|].
    destruct (Qlt_bool s 0) eqn:Es; [discriminate|]. destruct (Qlt_bool t 0) eqn:Et; [discriminate|].
    destruct (Qlt_bool u 0) eqn:Eu; [discriminate|]. destruct (Qlt_bool v 0) eqn:Ev; [discriminate|]. intros _.
    rewrite Qlt_bool_false in Es, Et, Eu, Ev. apply in_hull4. exists s, t, u, v. tauto.
  - intros Hh. rewrite (hull_in_box a b c d p tol) by assumption. cbn [negb].
    assert (ED : Qle_bool D 0 = false) by (apply Qle_bool_false; exact Hd). rewrite ED.
    apply in_hull4 in Hh. destruct Hh as (s' & t' & u' & v' & (Hs & Ht' & Hu & Hv') & S' & E').
    destruct (det_comb a b c d s' t' u' v' S') as (D1 & D2 & D3 & D4). fold D in D1, D2, D3, D4.
    assert (Es : s == s') by (unfold s; rewrite E', D1; field; lra).
    assert (Et : t == t') by (unfold t; rewrite E', D2; field; lra).
    assert (Eu : u == u') by (unfold u; rewrite E', D3; field; lra).
    assert (Ev : v == v') by (unfold v; rewrite E', D4; field; lra).
    assert (F1 : Qlt_bool s 0 = false) by (apply Qlt_bool_false; lra).
    assert (F2 : Qlt_bool t 0 = false) by (apply Qlt_bool_false; lra).
    assert (F3 : Qlt_bool u 0 = false) by (apply Qlt_bool_false; lra).
    assert (F4 : Qlt_bool v 0 = false) by (apply Qlt_bool_false; lra).
    assert (F5 : Qlt_bool (s + t + u + v) (- tol) = false) by (apply Qlt_bool_false; lra).
    assert (F6 : Qlt_bool (1 + tol) (s + t + u + v) = false) by (apply Qlt_bool_false; lra).
    rewrite F1, F2, F3, F4, F5, F6. reflexivity.
Qed.

Lemma tet_contains_never a b c d p tol : geo_tet_volume [a; b; c; d] <= 0 -> tet_contains [a; b; c; d] p tol = false.
Proof.
  intros H. unfold tet_contains. cbn [vert nth]. destruct (negb _); [reflexivity|].
  assert (E : Qle_bool (det_points a b c d) 0 = true).
  { apply Qle_bool_iff.
    assert (det_points a b c d == 6 * geo_tet_volume [a; b; c; d]) by (unfold geo_tet_volume, det_points, det3, dot; cbn [cross cx cy cz]; field). lra. }
  now rewrite E.
Qed.

(** ** Spheres and circles *)
Lemma sphere_same p1 p2 p3 p4 tol : let m11 := det_rows (fun p => (cx p, (cy p, cz p, 1))) p1 p2 p3 p4 in
  ~ Qabs m11 <= tol * tol ->
  forall p, In p [p1; p2; p3; p4] ->
    norm2 (vsub p (fst (sphere_of p1 p2 p3 p4 tol))) == snd (sphere_of p1 p2 p3 p4 tol).
Proof.
  intros m11 H p Hp. unfold sphere_of. fold m11.
  assert (E : Qle_bool (Qabs m11) (tol * tol) = false) by (apply Qle_bool_false; apply Qnot_le_lt; exact H).
  rewrite E. clear E. cbn [fst snd].
  assert (Hm : ~ m11 == 0).
  { intros Z. apply H. rewrite Z. change (Qabs 0) with 0. destruct (Qlt_le_dec tol 0); nra. }
  set (m12 := det_rows (fun p => (norm2 p, (cy p, cz p, 1))) p1 p2 p3 p4).
  set (m13 := det_rows (fun p => (cx p, (norm2 p, cz p, 1))) p1 p2 p3 p4).
  set (m14 := det_rows (fun p => (cx p, (cy p, norm2 p, 1))) p1 p2 p3 p4).
  set (m15 := det_rows (fun p => (norm2 p, (cx p, cy p, cz p))) p1 p2 p3 p4).
  assert (K : norm2 p * m11 - (m12 * cx p + m13 * cy p + m14 * cz p) + m15 == 0).
  { destruct Hp as [<-|[<-|[<-|[<-|[]]]]]; unfold m11, m12, m13, m14, m15; qring. }
  clearbody m11 m12 m13 m14 m15. clear H Hp.
  set (c := Coord ((1#2) * m12 / m11) ((1#2) * m13 / m11) ((1#2) * m14 / m11)).
  assert (X : norm2 (vsub p c) - (norm2 c - m15 / m11) == (norm2 p * m11 - (m12 * cx p + m13 * cy p + m14 * cz p) + m15) / m11).
  { unfold c, norm2, dot. cbn [vsub cx cy cz]. field. exact Hm. }
  rewrite K in X. assert (Y : 0 / m11 == 0) by (field; exact Hm). rewrite Y in X. lra.
Qed.

Lemma sphere_det p1 p2 p3 p4 : det_rows (fun p => (cx p, (cy p, cz p, 1))) p1 p2 p3 p4 == 6 * geo_tet_volume [p1; p2; p3; p4].
Proof. unfold geo_tet_volume, det3, dot. cbn [cross cx cy cz]. unfold det_rows, det4, minor. cbn [fst snd]. field. Qed.

Lemma circle_same p1 p2 p3 c r2 : cz p2 == cz p1 -> cz p3 == cz p1 ->
  ~ cz (cross (vsub p2 p1) (vsub p3 p2)) == 0 ->
  circle_of p1 p2 p3 0 = Ok (c, r2) -> forall p, In p [p1; p2; p3] -> norm2 (vsub p c) == r2.
Proof.
  intros Z2 Z3 Hn E p Hp. unfold circle_of in E. cbn [cross vsub cx cy cz] in Hn.
  set (xa := cx p2 - cx p1) in *. set (ya := cy p2 - cy p1) in *.
  set (xb := cx p3 - cx p2) in *. set (yb := cy p3 - cy p2) in *.
  assert (Abs : forall x, Qle_bool (Qabs x) (0 * 0) = true -> x == 0).
  { intros x H. apply Qle_bool_iff in H. pose proof (Qle_Qabs x). pose proof (Qle_Qabs (- x)) as H1. rewrite Qabs_opp in H1. lra. }
  destruct (Qle_bool (Qabs xa) (0 * 0) && Qle_bool (Qabs yb) (0 * 0)) eqn:B.
  - apply andb_true_iff in B. destruct B as [B1 B2]. apply Abs in B1, B2. unfold xa, yb in B1, B2.
    injection E as <- <-.
    assert (H2 : cx p2 == cx p1) by lra. assert (H3 : cy p3 == cy p2) by lra.
    destruct Hp as [<-|[<-|[<-|[]]]]; unfold norm2, dot; cbn [vsub cx cy cz].
    + reflexivity.
    + rewrite Z2, H2. ring.
    + rewrite Z3, H2, H3. ring.
  - unfold fdiv in E. cbn [bind] in E.
    destruct (Qeq_bool xa 0) eqn:Exa; [discriminate E|]. cbn [bind] in E.
    destruct (Qeq_bool xb 0) eqn:Exb; [discriminate E|]. cbn [bind] in E.
    apply Qeq_bool_neq in Exa, Exb.
    assert (Hs : ~ ya / xa - yb / xb == 0).
    { intros H. apply Hn.
      assert (G : xa * yb - ya * xb == - (ya / xa - yb / xb) * (xa * xb)) by (field; split; assumption).
      rewrite H in G. lra. }
    set (sa := ya / xa) in *. set (sb := yb / xb) in *.
    destruct (Qle_bool (Qabs (sa - sb)) (0 * 0)) eqn:Ed; [apply Abs in Ed; tauto|].
    destruct (Qeq_bool (2 * (sb - sa)) 0) eqn:E2; [discriminate E|]. apply Qeq_bool_neq in E2. cbn [bind] in E.
    destruct (Qeq_bool sa 0) eqn:E3; [discriminate E|]. apply Qeq_bool_neq in E3. cbn [bind] in E.
    injection E as <- <-.
    assert (Ya : cy p2 == cy p1 + sa * xa) by (unfold sa; field_simplify_eq; [unfold ya; ring|exact Exa]).
    assert (Yb : cy p3 == cy p1 + sa * xa + sb * xb).
    { rewrite <- Ya. unfold sb. field_simplify_eq; [unfold yb; ring|exact Exb]. }
    assert (Xa : cx p2 == cx p1 + xa) by (unfold xa; ring).
    assert (Xb : cx p3 == cx p1 + xa + xb) by (unfold xa, xb; ring).
    clearbody sa sb. clear Hs Hn Ed B Abs.
    assert (Hd : ~ sb - sa == 0) by (intros H; apply E2; rewrite H; ring).
    clearbody xa xb. clear ya yb E2.
    destruct Hp as [<-|[<-|[<-|[]]]]; unfold norm2, dot; cbn [vsub cx cy cz].
    + reflexivity.
    + rewrite Z2, Xa, Xb, Ya, Yb. field. split; assumption.
    + rewrite Z3, Xa, Xb, Ya, Yb. field. split; assumption.
Qed.

(** The only failures: a side parallel to an axis in the wrong place. *)
Lemma circle_defined p1 p2 p3 : 
  (~ cx p1 == cx p2 -> ~ cx p2 == cx p3 -> ~ cy p1 == cy p2 -> exists r, circle_of p1 p2 p3 0 = Ok r).
Proof.
  intros H1 H2 H3. unfold circle_of.
  destruct (_ && _); [eexists; reflexivity|]. unfold fdiv.
  assert (A : Qeq_bool (cx p2 - cx p1) 0 = false) by (apply not_true_is_false; intros T; apply Qeq_bool_iff in T; apply H1; lra).
  assert (B : Qeq_bool (cx p3 - cx p2) 0 = false) by (apply not_true_is_false; intros T; apply Qeq_bool_iff in T; apply H2; lra).
  rewrite A, B. cbn [bind].
  set (sa := (cy p2 - cy p1) / (cx p2 - cx p1)). set (sb := (cy p3 - cy p2) / (cx p3 - cx p2)).
  destruct (Qle_bool (Qabs (sa - sb)) (0 * 0)) eqn:Ed; [eexists; reflexivity|].
  assert (C : Qeq_bool (2 * (sb - sa)) 0 = false).
  { apply not_true_is_false; intros T; apply Qeq_bool_iff in T. apply Qle_bool_false in Ed.
    assert (Z : sa - sb == 0) by lra. rewrite Z in Ed. change (Qabs 0) with 0 in Ed. lra. }
  assert (D : Qeq_bool sa 0 = false).
  { apply not_true_is_false; intros T; apply Qeq_bool_iff in T. apply H3.
    assert (X : ~ cx p2 - cx p1 == 0) by (intros X; apply H1; lra).
    assert (G : cy p2 - cy p1 == sa * (cx p2 - cx p1)) by (unfold sa; field; exact X). rewrite T in G. lra. }
  rewrite C, D. cbn [bind]. eexists; reflexivity.
Qed.

(** ** Bounding box of a sphere centred at the origin *)
Lemma sq_le x r : 0 <= r -> x * x <= r * r -> - r <= x <= r.
Proof. intros H1 H2. split; nra. Qed.

Lemma sphere_box_origin r p tol : 0 <= r -> r <= real_max -> 0 <= tol ->
  sphere_contains vzero r p 0 = true -> box_contains (sphere_box vzero r) p tol = true.
Proof.
  intros Hr Hm Ht H. apply contains_iff.
  assert (T : tight (sphere_box vzero r) [Coord (- r) (- r) (- r); Coord r r r]).
  { apply (box_tight [Coord (- r) (- r) (- r); Coord r r r]); [discriminate|].
    intros c [<-|[<-|[]]]; unfold finite, in_box; cbn [cx cy cz]; lra. }
  destruct T as (Ti & _). pose proof (Ti _ (or_introl eq_refl)) as A. pose proof (Ti _ (or_intror (or_introl eq_refl))) as B.
  unfold sphere_contains in H. apply norm_le_true in H. destruct H as [_ H].
  assert (E : norm2 (vsub p vzero) == norm2 p) by qring. rewrite E in H. clear E.
  set (bb := sphere_box vzero r) in *. clearbody bb. unfold norm2, dot in H.
  assert (Hx : cx p * cx p <= r * r) by nra.
  assert (Hy : cy p * cy p <= r * r) by nra.
  assert (Hz : cz p * cz p <= r * r) by nra.
  apply sq_le in Hx, Hy, Hz; try exact Hr.
  unfold in_box in A, B. unfold in_box_tol, in_box. cbn [vadd vsub cx cy cz] in *. lra.
Qed.

Lemma sphere_through p1 p2 p3 p4 tol : tol * tol < Qabs (6 * geo_tet_volume [p1; p2; p3; p4]) ->
  forall p, In p [p1; p2; p3; p4] ->
    norm2 (vsub p (fst (sphere_of p1 p2 p3 p4 tol))) == snd (sphere_of p1 p2 p3 p4 tol).
Proof. intros H. apply sphere_same. rewrite sphere_det. lra. Qed.

Lemma sphere_flat p1 p2 p3 p4 tol : Qabs (6 * geo_tet_volume [p1; p2; p3; p4]) <= tol * tol ->
  sphere_of p1 p2 p3 p4 tol = (vzero, 0).
Proof.
  intros H. unfold sphere_of. rewrite <- sphere_det in H.
  match goal with |- context [Qle_bool ?x ?y] => assert (E : Qle_bool x y = true) by (apply Qle_bool_iff; exact H); rewrite E end. reflexivity.
Qed.

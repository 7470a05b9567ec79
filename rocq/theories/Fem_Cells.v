(** C46, continued: elements integrated numerically (quadrilaterals, hexahedra, prisms). *)
From Coq Require Import Reals ZArith QArith Qreals List Lia Lra.
From Verif Require Import Int_Model Fem_Model Fem_Spec Fem_Proofs.
Import ListNotations.
Open Scope R_scope.

(** ** Integration points *)
Lemma quad_points_eq : exists q z, 0 < q < 1 /\ quad_points = [RPoint (- q) (- q) z 1; RPoint q (- q) z 1; RPoint (- q) q z 1; RPoint q q z 1].
Proof.
  exists (Q2R (1443375673 # 2500000000)), (Q2R 0). split; [unfold Q2R; cbn; lra|]. unfold quad_points, quad_rule, quad4, to_real. cbn [map ip_at ip_w nth fold_right].
  repeat f_equal; unfold Q2R; cbn; lra.
Qed.
Lemma hexa_points_eq : exists q, 0 < q < 1 /\ q = 1443375673 / 2500000000 /\ hexa_points =
  [RPoint (- q) (- q) (- q) 1; RPoint q (- q) (- q) 1; RPoint (- q) q (- q) 1; RPoint q q (- q) 1; RPoint (- q) (- q) q 1; RPoint q (- q) q 1; RPoint (- q) q q 1; RPoint q q q 1].
Proof.
  exists (Q2R (1443375673 # 2500000000)). split; [unfold Q2R; cbn; lra|]. split; [unfold Q2R; cbn; lra|]. unfold hexa_points, hexa_rule, hexa8, to_real. cbn [map ip_at ip_w nth fold_right].
  repeat f_equal; unfold Q2R; cbn; lra.
Qed.
Lemma prism_points_eq r3 : exists z, prism_points r3 =
  [RPoint (1 / 6) (1 / 6) (- z) (1 / 8); RPoint (1 / 3) (1 / 6) (- z) (1 / 8); RPoint (1 / 6) (1 / 3) (- z) (1 / 8); RPoint (1 / 6) (1 / 6) z (1 / 8); RPoint (1 / 3) (1 / 6) z (1 / 8); RPoint (1 / 6) (1 / 3) z (1 / 8)].
Proof.
  exists (Q2R r3). unfold prism_points, prism_rule, prism6, to_real. cbn [map ip_at ip_w nth fold_right]. rewrite Q2R_opp.
  assert (E6 : Q2R (1 # 6) = 1 / 6) by (unfold Q2R; cbn; lra). assert (E3 : Q2R (1 # 3) = 1 / 3) by (unfold Q2R; cbn; lra). assert (E2 : Q2R (1 # 2) = 1 / 2) by (unfold Q2R; cbn; lra).
  rewrite E6, E3, E2. replace (1 / 2 * (1 / 2 * (1 / 2 * 1))) with (1 / 8) by field. reflexivity.
Qed.
Lemma quad_weights p : In p quad_points -> r_w p = 1 /\ -1 < r_xi p < 1 /\ -1 < r_eta p < 1.
Proof. destruct quad_points_eq as (q & z & Hq & ->). cbn [In]. intros [<-|[<-|[<-|[<-|[]]]]]; cbn; lra. Qed.
Lemma hexa_weights p : In p hexa_points -> r_w p = 1.
Proof. destruct hexa_points_eq as (q & Hq & _ & ->). cbn [In]. intros H. repeat (destruct H as [<-|H]; [reflexivity|]). destruct H. Qed.
Lemma prism_weights r3 p : In p (prism_points r3) -> r_w p = 1 / 8.
Proof. destruct (prism_points_eq r3) as (z & ->). cbn [In]. intros H. repeat (destruct H as [<-|H]; [reflexivity|]). destruct H. Qed.

(** ** Quadrilateral *)
Lemma quad_G_constants p m : (m < 2)%nat -> rsum 4 (quad_G p m) = 0.
Proof. intros H. destruct m as [|[|]]; [| |lia]; unfold quad_G, mscale, of_rows; cbn [rsum nth]; field. Qed.
Lemma solve2_constants J G k : (forall m, (m < 2)%nat -> rsum 4 (G m) = 0) -> rsum 4 (solve2 J G k) = 0.
Proof.
  intros H. pose proof (H 0%nat ltac:(lia)) as H0. pose proof (H 1%nat ltac:(lia)) as H1. cbn [rsum] in *. unfold solve2, Rdiv.
  destruct k as [|[|]]; [..|ring].
  - replace 0 with ((J 1%nat 1%nat * (0 + G 0%nat 0%nat + G 0%nat 1%nat + G 0%nat 2%nat + G 0%nat 3%nat) - J 0%nat 1%nat * (0 + G 1%nat 0%nat + G 1%nat 1%nat + G 1%nat 2%nat + G 1%nat 3%nat)) * / det2 J) at 2 by (rewrite H0, H1; ring). ring.
  - replace 0 with ((J 0%nat 0%nat * (0 + G 1%nat 0%nat + G 1%nat 1%nat + G 1%nat 2%nat + G 1%nat 3%nat) - J 1%nat 0%nat * (0 + G 0%nat 0%nat + G 0%nat 1%nat + G 0%nat 2%nat + G 0%nat 3%nat)) * / det2 J) at 2 by (rewrite H0, H1; ring). ring.
Qed.
Section Quad.
Context (a b c d e1 e2 : pt) (s : R) (F : plane_frame a b c e1 e2 s) (HA : 0 < tri_area a b c) (HP : pdot (tri_normal a b c) (psub d a) = 0).
Let J (p : rpoint) := quad_J (local a b c a) (local a b c b) (local a b c c) (local a b c d) p.
Let X (v : pt) := pdot e1 (psub v a).
Let Y (v : pt) := pdot e2 (psub v a).
Lemma ss : s * s = 1. Proof. destruct (pf_s _ _ _ _ _ _ F) as [->| ->]; ring. Qed.
Lemma loc_x v : px (local a b c v) = px (local a b c a) + X v. Proof. unfold X. rewrite <- (pf_x _ _ _ _ _ _ F). ring. Qed.
Lemma loc_y v : py (local a b c v) = py (local a b c a) + Y v. Proof. unfold Y. rewrite <- (pf_y _ _ _ _ _ _ F). ring. Qed.
Lemma flat v : In v [a; b; c; d] -> pdot (psub v a) (tri_normal a b c) = 0.
Proof.
  cbn [In]. intros [<-|[<-|[<-|[<-|[]]]]]; [unfold pdot, psub; cbn; ring|unfold pdot, psub, tri_normal, pcross, psub; cbn; ring|unfold pdot, psub, tri_normal, pcross, psub; cbn; ring|].
  rewrite <- HP. unfold pdot. ring.
Qed.
Lemma field_at g k v : In v [a; b; c; d] -> pdot g v + k = (pdot g a + k) + pdot g e1 * X v + pdot g e2 * Y v.
Proof. intros H. unfold X, Y. assert (E := frame_dot a b c e1 e2 s g (psub v a) F HA (flat v H)). replace (pdot g v) with (pdot g a + pdot g (psub v a)) by (unfold pdot, psub; cbn; ring). rewrite E. ring. Qed.
Lemma quad_gradient g k p : det2 (J p) <> 0 ->
  rsum 4 (fun j => solve2 (J p) (quad_G p) 0%nat j * linear g k [a; b; c; d] j) = pdot g e1 /\ rsum 4 (fun j => solve2 (J p) (quad_G p) 1%nat j * linear g k [a; b; c; d] j) = pdot g e2.
Proof.
  intros D. assert (R : forall m, (m < 2)%nat -> rsum 4 (fun j => quad_G p m j * linear g k [a; b; c; d] j) = J p m 0%nat * pdot g e1 + J p m 1%nat * pdot g e2).
  { intros m Hm. unfold linear. cbn [rsum nth]. rewrite (field_at g k a), (field_at g k b), (field_at g k c), (field_at g k d) by (cbn; tauto).
    unfold J, quad_J, quad_G, mscale, of_rows. cbv zeta. rewrite (loc_x a), (loc_x b), (loc_x c), (loc_x d), (loc_y a), (loc_y b), (loc_y c), (loc_y d).
    destruct m as [|[|]]; [| |lia]; cbn [rsum nth fst snd]; field. }
  pose proof (R 0%nat ltac:(lia)) as R0. pose proof (R 1%nat ltac:(lia)) as R1. clear R. generalize dependent (J p). intros J' D R0 R1. cbn [rsum] in *. unfold solve2.
  set (u := linear g k [a; b; c; d]) in *. clearbody u. unfold det2 in *. split; (eapply Rmult_eq_reg_r; [|exact D]).
  - transitivity (J' 1%nat 1%nat * (0 + quad_G p 0%nat 0%nat * u 0%nat + quad_G p 0%nat 1%nat * u 1%nat + quad_G p 0%nat 2%nat * u 2%nat + quad_G p 0%nat 3%nat * u 3%nat)
      - J' 0%nat 1%nat * (0 + quad_G p 1%nat 0%nat * u 0%nat + quad_G p 1%nat 1%nat * u 1%nat + quad_G p 1%nat 2%nat * u 2%nat + quad_G p 1%nat 3%nat * u 3%nat)); [field; exact D|]. rewrite R0, R1. ring.
  - transitivity (J' 0%nat 0%nat * (0 + quad_G p 1%nat 0%nat * u 0%nat + quad_G p 1%nat 1%nat * u 1%nat + quad_G p 1%nat 2%nat * u 2%nat + quad_G p 1%nat 3%nat * u 3%nat)
      - J' 1%nat 0%nat * (0 + quad_G p 0%nat 0%nat * u 0%nat + quad_G p 0%nat 1%nat * u 1%nat + quad_G p 0%nat 2%nat * u 2%nat + quad_G p 0%nat 3%nat * u 3%nat)); [field; exact D|]. rewrite R0, R1. ring.
Qed.
(** Determinants: weighted means of the turns at the corners. *)
Definition turn (u v w : pt) : R := pdot (pcross e1 e2) (pcross (psub v u) (psub w u)).
Lemma turn_xy u v w : turn u v w = (X v - X u) * (Y w - Y u) - (X w - X u) * (Y v - Y u).
Proof. unfold turn, X, Y. rewrite <- (frame_det a b c e1 e2 s) by exact F. unfold pdot, psub. cbn. ring. Qed.
Lemma quad_det p : det2 (J p) = 1 / 16 * ((1 - r_xi p) * (1 - r_eta p) * turn a b d + (1 - r_xi p) * (1 + r_eta p) * turn b c a + (1 + r_xi p) * (1 + r_eta p) * turn c d b + (1 + r_xi p) * (1 - r_eta p) * turn d a c).
Proof.
  rewrite !turn_xy. unfold det2, J, quad_J, mscale, of_rows. cbv zeta. cbn [nth fst snd].
  rewrite (loc_x b), (loc_x c), (loc_x d), (loc_y b), (loc_y c), (loc_y d). replace (X a) with 0 by (unfold X, pdot, psub; cbn; ring). replace (Y a) with 0 by (unfold Y, pdot, psub; cbn; ring). field.
Qed.
Lemma turn_sign u v w : 0 < pdot (tri_normal a b c) (pcross (psub v u) (psub w u)) -> 0 < s * turn u v w.
Proof.
  rewrite (pf_N _ _ _ _ _ _ F). unfold turn. replace (pdot (pscale (s * (2 * tri_area a b c)) (pcross e1 e2)) (pcross (psub v u) (psub w u))) with (2 * tri_area a b c * (s * pdot (pcross e1 e2) (pcross (psub v u) (psub w u)))) by (unfold pdot, pscale; cbn; ring).
  intros H. apply (Rmult_lt_reg_l (2 * tri_area a b c)); [lra|]. lra.
Qed.
Lemma quad_measure : convex a b c d -> (forall p, In p quad_points -> 0 < s * det2 (J p)) /\ measure quad_points (fun p => det2 (J p)) = quad_area a b c d.
Proof.
  intros (_ & C1 & C2 & C3 & C4). apply turn_sign in C1, C2, C3, C4.
  assert (Pos : forall p, In p quad_points -> 0 < s * det2 (J p)).
  { intros p Hp. destruct (quad_weights p Hp) as (_ & Hx & He). rewrite quad_det. set (x := r_xi p) in *. set (e := r_eta p) in *.
    replace (s * (1 / 16 * ((1 - x) * (1 - e) * turn a b d + (1 - x) * (1 + e) * turn b c a + (1 + x) * (1 + e) * turn c d b + (1 + x) * (1 - e) * turn d a c)))
      with (1 / 16 * ((1 - x) * (1 - e) * (s * turn a b d) + (1 - x) * (1 + e) * (s * turn b c a) + (1 + x) * (1 + e) * (s * turn c d b) + (1 + x) * (1 - e) * (s * turn d a c))) by ring.
    assert (0 < (1 - x) * (1 - e)) by nra. assert (0 < (1 - x) * (1 + e)) by nra. assert (0 < (1 + x) * (1 + e)) by nra. assert (0 < (1 + x) * (1 - e)) by nra.
    assert (0 < (1 - x) * (1 - e) * (s * turn a b d)) by nra. assert (0 < (1 - x) * (1 + e) * (s * turn b c a)) by nra. assert (0 < (1 + x) * (1 + e) * (s * turn c d b)) by nra. assert (0 < (1 + x) * (1 - e) * (s * turn d a c)) by nra. lra. }
  split; [exact Pos|].
  assert (Ab : forall p, In p quad_points -> Rabs (det2 (J p)) = s * det2 (J p)).
  { intros p Hp. specialize (Pos p Hp). destruct (pf_s _ _ _ _ _ _ F) as [E|E]; rewrite E in *; [rewrite Rabs_right; lra|rewrite Rabs_left; lra]. }
  unfold measure. rewrite (psum_ext _ _ (fun p => s * det2 (J p))) by (intros p Hp; rewrite (Ab p Hp); destruct (quad_weights p Hp) as (-> & _); ring).
  assert (Sum : psum quad_points (fun p => s * det2 (J p)) = s * (1 / 4 * (turn a b d + turn b c a + turn c d b + turn d a c))).
  { rewrite psum_scale. f_equal. rewrite (psum_ext _ _ _ (fun p _ => quad_det p)). destruct quad_points_eq as (q & z & _ & ->). cbn [psum fold_right r_xi r_eta]. field. }
  rewrite Sum. unfold quad_area. set (v := psub c a). set (w := psub d b).
  assert (Fv : pdot v (tri_normal a b c) = 0) by (unfold v; apply flat; cbn; tauto).
  assert (Fw : pdot w (tri_normal a b c) = 0) by (unfold w; replace (pdot (psub d b) (tri_normal a b c)) with (pdot (psub d a) (tri_normal a b c) - pdot (psub b a) (tri_normal a b c)) by (unfold pdot, psub; cbn; ring); rewrite !flat by (cbn; tauto); ring).
  assert (T : turn a b d + turn b c a + turn c d b + turn d a c = 2 * (pdot e1 v * pdot e2 w - pdot e1 w * pdot e2 v)).
  { rewrite !turn_xy. unfold v, w, X, Y. replace (pdot e1 (psub d b)) with (pdot e1 (psub d a) - pdot e1 (psub b a)) by (unfold pdot, psub; cbn; ring). replace (pdot e2 (psub d b)) with (pdot e2 (psub d a) - pdot e2 (psub b a)) by (unfold pdot, psub; cbn; ring).
    replace (pdot e1 (psub a a)) with 0 by (unfold pdot, psub; cbn; ring). replace (pdot e2 (psub a a)) with 0 by (unfold pdot, psub; cbn; ring). ring. }
  rewrite (pnorm_unique _ (s * (pdot e1 v * pdot e2 w - pdot e1 w * pdot e2 v))).
  - rewrite T. field.
  - assert (0 < s * (2 * (pdot e1 v * pdot e2 w - pdot e1 w * pdot e2 v))) by (rewrite <- T; lra). lra.
  - assert (Lg : pdot (pcross v w) (pcross v w) = pdot v v * pdot w w - pdot v w * pdot v w) by (unfold pdot, pcross; cbn; ring). rewrite Lg.
    rewrite (frame_dot a b c e1 e2 s v v F HA Fv), (frame_dot a b c e1 e2 s w w F HA Fw), (frame_dot a b c e1 e2 s v w F HA Fw).
    replace (pdot v e1) with (pdot e1 v) by (unfold pdot; ring). replace (pdot v e2) with (pdot e2 v) by (unfold pdot; ring). replace (pdot w e1) with (pdot e1 w) by (unfold pdot; ring). replace (pdot w e2) with (pdot e2 w) by (unfold pdot; ring).
    pose proof ss as S2. replace (s * (pdot e1 v * pdot e2 w - pdot e1 w * pdot e2 v) * (s * (pdot e1 v * pdot e2 w - pdot e1 w * pdot e2 v))) with (s * s * ((pdot e1 v * pdot e2 w - pdot e1 w * pdot e2 v) * (pdot e1 v * pdot e2 w - pdot e1 w * pdot e2 v))) by ring. rewrite S2. ring.
Qed.
End Quad.

(** Diffusion and storage of a convex planar quadrilateral anywhere in space. *)
Theorem C46_quadrilateral : forall thickness dt a b c d, convex a b c d -> 0 < thickness -> 0 < dt ->
  let K := quad_laplacian thickness a b c d in let M := quad_ddt thickness dt a b c d in
  symmetric 4 K /\ kills_constants 4 K /\ dissipative 4 K /\
  (forall g h k k', pdot g (tri_normal a b c) = 0 ->
     form 4 K (linear g k [a; b; c; d]) (linear h k' [a; b; c; d]) = - pdot g h * (quad_area a b c d * thickness)) /\
  symmetric 4 M /\ (forall u, 0 <= form 4 M u u) /\ total 4 M = quad_area a b c d * thickness / dt.
Proof.
  intros t dt a b c d Cv Ht Hdt K M.
  assert (HA : 0 < tri_area a b c).
  { destruct Cv as (_ & _ & C2 & _). unfold tri_area. assert (0 < pnorm (tri_normal a b c)); [|lra]. apply pnorm_pos. replace (pdot (tri_normal a b c) (tri_normal a b c)) with (pdot (tri_normal a b c) (pcross (psub c b) (psub a b))); [exact C2|]. unfold tri_normal, pdot, pcross, psub; cbn; ring. }
  assert (HP : pdot (tri_normal a b c) (psub d a) = 0) by apply Cv.
  destruct (get_frame a b c HA) as (e1 & e2 & s & F). destruct (quad_measure a b c d e1 e2 s F HA HP Cv) as [Pos Me].
  repeat match goal with |- _ /\ _ => split end.
  - apply scale_symmetric, over_symmetric. intros p _. apply minus_BtB_symmetric.
  - apply scale_constants, over_constants. intros p _. apply minus_BtB_constants. intros k _. apply solve2_constants. intros m Hm. now apply quad_G_constants.
  - apply scale_dissipative; [lra|]. apply over_dissipative. intros p Hp. destruct (quad_weights p Hp) as (-> & _). split; [lra|apply minus_BtB_dissipative].
  - intros g h k k' Hg. unfold K, quad_laplacian. cbv zeta. rewrite form_scale, form_over_points.
    rewrite (psum_ext _ _ (fun p => - pdot g h * (r_w p * Rabs (det2 (quad_J (local a b c a) (local a b c b) (local a b c c) (local a b c d) p))))).
    + rewrite psum_scale. unfold measure in Me. rewrite Me. ring.
    + intros p Hp. assert (D : det2 (quad_J (local a b c a) (local a b c b) (local a b c c) (local a b c d) p) <> 0) by (intros Z; specialize (Pos p Hp); cbv beta in Pos; rewrite Z in Pos; lra).
      rewrite form_minus_BtB. destruct (quad_gradient a b c d e1 e2 s F HA HP g k p D) as [G0 G1]. destruct (quad_gradient a b c d e1 e2 s F HA HP h k' p D) as [H0 H1].
      rewrite (rsum_ext 2 _ (fun m => match m with O => pdot g e1 * pdot h e1 | _ => pdot g e2 * pdot h e2 end)).
      * cbn [rsum]. rewrite (gram e1 e2 g h (pf_11 _ _ _ _ _ _ F) (pf_22 _ _ _ _ _ _ F) (pf_12 _ _ _ _ _ _ F)), (frame_normal a b c e1 e2 s g F HA Hg). ring.
      * intros m Hm. destruct m as [|[|]]; [| |lia]; [now rewrite G0, H0|now rewrite G1, H1].
  - unfold M, quad_ddt. rewrite per_dt_pos by exact Hdt. apply scale_symmetric, scale_symmetric, over_symmetric. intros p _. apply outer_symmetric.
  - intros u. unfold M, quad_ddt. rewrite per_dt_pos by exact Hdt. rewrite !form_scale. apply Rmult_le_pos; [left; now apply Rinv_0_lt_compat|]. apply Rmult_le_pos; [lra|]. apply over_mass_nonneg. intros p Hp. destruct (quad_weights p Hp) as (-> & _). lra.
  - unfold M, quad_ddt. rewrite per_dt_pos by exact Hdt. cbv zeta. rewrite !scale_total, over_total.
    + rewrite Me. field. lra.
    + intros p _. unfold quad_N. cbn [rsum nth]. field.
Qed.
Print Assumptions C46_quadrilateral.
(** A trapezoid in a sloping plane. *)
Example C46_quadrilateral_case : convex (P 0 0 0) (P 4 0 0) (P 3 3 4) (P 1 3 4) /\ quad_area (P 0 0 0) (P 4 0 0) (P 3 3 4) (P 1 3 4) = 15.
Proof.
  split; [unfold convex, tri_normal, pdot, pcross, psub; cbn; repeat split; lra|]. unfold quad_area. rewrite (pnorm_unique _ 30); [field|lra|]. unfold pdot, pcross, psub. cbn. ring.
Qed.
(** Storage is evaluated with the determinants of the points mirrored about the diagonal: a trapezoid with its mirror image about the line x = 0
    gets different storage at its two lower corners. *)
Theorem C46_quadrilateral_mirror_refuted : let a := P (-2) 0 0 in let b := P 2 0 0 in let c := P 1 1 0 in let d := P (-1) 1 0 in
  convex a b c d /\ quad_ddt 1 1 a b c d 0%nat 0%nat <> quad_ddt 1 1 a b c d 1%nat 1%nat.
Proof.
  cbn zeta. split; [unfold convex, tri_normal, pdot, pcross, psub; cbn; repeat split; lra|].
  unfold quad_ddt. rewrite per_dt_pos by lra. unfold mscale. rewrite !over_points_entry. unfold local. cbn [pz]. destruct (Req_EM_T 0 0); [|contradiction].
  destruct quad_points_eq as (q & z & Hq & ->). cbn [psum fold_right r_w].
  assert (D : forall p, det2 (quad_J (P (-2) 0 0) (P 2 0 0) (P 1 1 0) (P (-1) 1 0) p) = (3 - r_xi p) / 4) by (intros; unfold det2, quad_J, mscale, of_rows; cbn [nth fst snd px py]; field).
  rewrite !D. cbn [r_xi]. rewrite !Rabs_right by lra. unfold outer, quad_N. cbn [nth r_xi r_eta].
  intros E. nra.
Qed.
Print Assumptions C46_quadrilateral_mirror_refuted.

(** ** Hexahedron *)
Lemma hexa_G_constants p m : (m < 3)%nat -> rsum 8 (hexa_G p m) = 0.
Proof. intros H. destruct m as [|[|[|]]]; [| | |lia]; unfold hexa_G, mscale, of_rows; cbn [rsum nth]; field. Qed.
Lemma prism_G_constants p m : (m < 3)%nat -> rsum 6 (prism_G p m) = 0.
Proof. intros H. destruct m as [|[|[|]]]; [| | |lia]; unfold prism_G, mscale, of_rows; cbn [rsum nth]; field. Qed.
(** Whatever the shape, as long as the map from the reference element is not singular at the integration points: diffusion is symmetric, nothing
    for constants, never increases, and for linear fields is the product of the gradients times the volume the storage matrix has. *)
Theorem C46_hexahedron : forall dt v, 0 < dt -> (forall p, In p hexa_points -> det3 (J_of 8 (hexa_G p) v) <> 0) ->
  let K := hexa_laplacian v in let M := hexa_ddt dt v in
  symmetric 8 K /\ kills_constants 8 K /\ dissipative 8 K /\
  (forall g h k k', form 8 K (linear g k v) (linear h k' v) = - pdot g h * (total 8 M * dt)) /\
  symmetric 8 M /\ (forall u, 0 <= form 8 M u u) /\ 0 < total 8 M.
Proof.
  intros dt v Hdt HD K M.
  assert (Tot : total 8 M = / dt * measure hexa_points (fun p => det3 (J_of 8 (hexa_G p) v))).
  { unfold M, hexa_ddt. rewrite per_dt_pos by exact Hdt. cbv zeta. rewrite scale_total, over_total; [reflexivity|]. intros p _. unfold hexa_N. cbn [rsum nth]. field. }
  repeat match goal with |- _ /\ _ => split end.
  - apply over_symmetric. intros p _. apply minus_BtB_symmetric.
  - apply over_constants. intros p _. apply minus_BtB_constants. intros k _. apply solve3_constants. intros m Hm. now apply hexa_G_constants.
  - apply over_dissipative. intros p Hp. rewrite (hexa_weights p Hp). split; [lra|apply minus_BtB_dissipative].
  - intros g h k k'. rewrite Tot. unfold K, hexa_laplacian. cbv zeta. rewrite over_linear by (auto; intros; now apply hexa_G_constants). field. lra.
  - unfold M, hexa_ddt. rewrite per_dt_pos by exact Hdt. apply scale_symmetric, over_symmetric. intros p _. apply outer_symmetric.
  - intros u. unfold M, hexa_ddt. rewrite per_dt_pos by exact Hdt. rewrite form_scale. apply Rmult_le_pos; [left; now apply Rinv_0_lt_compat|]. apply over_mass_nonneg. intros p Hp. rewrite (hexa_weights p Hp). lra.
  - rewrite Tot. apply Rmult_lt_0_compat; [now apply Rinv_0_lt_compat|]. unfold measure. destruct hexa_points_eq as (q & Hq & _ & E). rewrite E in *. cbn [psum fold_right r_w].
    assert (N : forall p, In p [RPoint (- q) (- q) (- q) 1; RPoint q (- q) (- q) 1; RPoint (- q) q (- q) 1; RPoint q q (- q) 1; RPoint (- q) (- q) q 1; RPoint q (- q) q 1; RPoint (- q) q q 1; RPoint q q q 1] -> 0 < Rabs (det3 (J_of 8 (hexa_G p) v))) by (intros p Hp; apply Rabs_pos_lt; now apply HD).
    repeat match goal with |- context [Rabs (det3 (J_of 8 (hexa_G ?p) v))] => lazymatch goal with H : 0 < Rabs (det3 (J_of 8 (hexa_G p) v)) |- _ => fail | _ => idtac end; assert (0 < Rabs (det3 (J_of 8 (hexa_G p) v))) by (apply N; cbn; tauto); generalize dependent (Rabs (det3 (J_of 8 (hexa_G p) v))); intros end.
    lra.
Qed.
Print Assumptions C46_hexahedron.
(** The shape functions number the vertices x first, then y, then z. Boxes and parallelepipeds in that order: exact. *)
Definition box (o e1 e2 e3 : pt) : list pt :=
  [o; padd o e1; padd o e2; padd (padd o e1) e2; padd o e3; padd (padd o e1) e3; padd (padd o e2) e3; padd (padd (padd o e1) e2) e3].
Lemma box_det o e1 e2 e3 p : det3 (J_of 8 (hexa_G p) (box o e1 e2 e3)) = pdot e1 (pcross e2 e3) / 8.
Proof.
  assert (R : forall k, J_of 8 (hexa_G p) (box o e1 e2 e3) 0%nat k = coordinate k e1 / 2 /\ J_of 8 (hexa_G p) (box o e1 e2 e3) 1%nat k = coordinate k e2 / 2 /\ J_of 8 (hexa_G p) (box o e1 e2 e3) 2%nat k = coordinate k e3 / 2).
  { intros k. unfold J_of, hexa_G, mscale, of_rows, box. cbn [rsum nth]. destruct k as [|[|k]]; cbn [coordinate]; unfold padd; cbn [px py pz]; repeat split; field. }
  unfold det3. rewrite !(proj1 (R _)), !(proj1 (proj2 (R _))), !(proj2 (proj2 (R _))). cbn [coordinate]. unfold pdot, pcross. cbn. field.
Qed.
Theorem C46_parallelepiped : forall dt o e1 e2 e3, 0 < dt -> pdot e1 (pcross e2 e3) <> 0 ->
  let v := box o e1 e2 e3 in let V := Rabs (pdot e1 (pcross e2 e3)) in
  total 8 (hexa_ddt dt v) = V / dt /\
  (forall g h k k', form 8 (hexa_laplacian v) (linear g k v) (linear h k' v) = - pdot g h * V).
Proof.
  intros dt o e1 e2 e3 Hdt HT v V.
  assert (Tot : total 8 (hexa_ddt dt v) = V / dt).
  { unfold hexa_ddt. rewrite per_dt_pos by exact Hdt. cbv zeta. rewrite scale_total, over_total by (intros p _; unfold hexa_N; cbn [rsum nth]; field).
    unfold measure. rewrite (psum_ext _ _ (fun p => r_w p * (V / 8))). 
    - destruct hexa_points_eq as (q & _ & _ & ->). cbn [psum fold_right r_w]. field. lra.
    - intros p _. f_equal. unfold v. rewrite box_det. unfold Rdiv. rewrite Rabs_mult, (Rabs_right (/ 8)) by lra. reflexivity. }
  split; [exact Tot|]. intros g h k k'.
  assert (HD : forall p, In p hexa_points -> det3 (J_of 8 (hexa_G p) v) <> 0) by (intros p _; unfold v; rewrite box_det; intros Z; apply HT; lra).
  destruct (C46_hexahedron dt v Hdt HD) as (_ & _ & _ & E & _). rewrite E, Tot. field. lra.
Qed.
Print Assumptions C46_parallelepiped.
Example C46_hexahedron_case : pdot (P 1 0 0) (pcross (P 1 2 0) (P 0 1 3)) <> 0.
Proof. unfold pdot, pcross. cbn. lra. Qed.
(** But mesh hexahedra list the bottom face in a ring, then the top face (MshBasicMesher, the faces of CMshElement): the unit cube in that order
    gets total storage 1443375673/2500000000 (about 0.577) instead of its volume 1. *)
Theorem C46_mesh_order_refuted :
  total 8 (hexa_ddt 1 [P 0 0 0; P 1 0 0; P 1 1 0; P 0 1 0; P 0 0 1; P 1 0 1; P 1 1 1; P 0 1 1]) = 1443375673 / 2500000000.
Proof.
  unfold hexa_ddt. rewrite per_dt_pos by lra. cbv zeta. rewrite scale_total, over_total by (intros p _; unfold hexa_N; cbn [rsum nth]; field).
  unfold measure. assert (D : forall p, det3 (J_of 8 (hexa_G p) [P 0 0 0; P 1 0 0; P 1 1 0; P 0 1 0; P 0 0 1; P 1 0 1; P 1 1 1; P 0 1 1]) = - r_eta p / 8).
  { intros p. unfold det3, J_of, hexa_G, mscale, of_rows. cbn [rsum nth coordinate px py pz]. field. }
  rewrite (psum_ext _ _ (fun p => r_w p * Rabs (- r_eta p / 8))) by (intros; now rewrite D).
  destruct hexa_points_eq as (q & Hq & Eq & ->). cbn [psum fold_right r_w r_eta]. rewrite <- Eq. clear Eq.
  replace (- - q / 8) with (q / 8) by field. replace (- q / 8) with (- (q / 8)) by field. rewrite Rabs_Ropp, Rabs_right by lra. field.
Qed.
Print Assumptions C46_mesh_order_refuted.

(** ** Triangular prism *)
Theorem C46_prism : forall r3 dt v, 0 < dt -> (forall p, In p (prism_points r3) -> det3 (J_of 6 (prism_G p) v) <> 0) ->
  let K := prism_laplacian r3 v in let M := prism_ddt r3 dt v in
  symmetric 6 K /\ kills_constants 6 K /\ dissipative 6 K /\
  (forall g h k k', form 6 K (linear g k v) (linear h k' v) = - pdot g h * (total 6 M * dt)) /\
  symmetric 6 M /\ (forall u, 0 <= form 6 M u u).
Proof.
  intros r3 dt v Hdt HD K M.
  assert (Tot : total 6 M = / dt * measure (prism_points r3) (fun p => det3 (J_of 6 (prism_G p) v))).
  { unfold M, prism_ddt. rewrite per_dt_pos by exact Hdt. cbv zeta. rewrite scale_total, over_total; [reflexivity|]. intros p _. unfold prism_N. cbn [rsum nth]. field. }
  repeat match goal with |- _ /\ _ => split end.
  - apply over_symmetric. intros p _. apply minus_BtB_symmetric.
  - apply over_constants. intros p _. apply minus_BtB_constants. intros k _. apply solve3_constants. intros m Hm. now apply prism_G_constants.
  - apply over_dissipative. intros p Hp. rewrite (prism_weights r3 p Hp). split; [lra|apply minus_BtB_dissipative].
  - intros g h k k'. rewrite Tot. unfold K, prism_laplacian. cbv zeta. rewrite over_linear by (auto; intros; now apply prism_G_constants). field. lra.
  - unfold M, prism_ddt. rewrite per_dt_pos by exact Hdt. apply scale_symmetric, over_symmetric. intros p _. apply outer_symmetric.
  - intros u. unfold M, prism_ddt. rewrite per_dt_pos by exact Hdt. rewrite form_scale. apply Rmult_le_pos; [left; now apply Rinv_0_lt_compat|]. apply over_mass_nonneg. intros p Hp. rewrite (prism_weights r3 p Hp). lra.
Qed.
Print Assumptions C46_prism.
(** A prism with parallel edges e3 over the triangle o, o + e1, o + e2 has volume |e1 . (e2 x e3)| / 2; both matrices have three quarters of it. *)
Definition straight_prism (o e1 e2 e3 : pt) : list pt := [o; padd o e1; padd o e2; padd o e3; padd (padd o e1) e3; padd (padd o e2) e3].
Lemma straight_det o e1 e2 e3 p : det3 (J_of 6 (prism_G p) (straight_prism o e1 e2 e3)) = pdot e1 (pcross e2 e3) / 2.
Proof.
  assert (R : forall k, J_of 6 (prism_G p) (straight_prism o e1 e2 e3) 0%nat k = coordinate k e1 /\ J_of 6 (prism_G p) (straight_prism o e1 e2 e3) 1%nat k = coordinate k e2 /\ J_of 6 (prism_G p) (straight_prism o e1 e2 e3) 2%nat k = coordinate k e3 / 2).
  { intros k. unfold J_of, prism_G, mscale, of_rows, straight_prism. cbn [rsum nth]. destruct k as [|[|k]]; cbn [coordinate]; unfold padd; cbn [px py pz]; repeat split; field. }
  unfold det3. rewrite !(proj1 (R _)), !(proj1 (proj2 (R _))), !(proj2 (proj2 (R _))). cbn [coordinate]. unfold pdot, pcross. cbn. field.
Qed.
Theorem C46_prism_volume_refuted : forall r3 dt o e1 e2 e3, 0 < dt -> pdot e1 (pcross e2 e3) <> 0 ->
  let v := straight_prism o e1 e2 e3 in let V := Rabs (pdot e1 (pcross e2 e3)) / 2 in
  total 6 (prism_ddt r3 dt v) = 3 / 4 * V / dt /\
  (forall g h k k', form 6 (prism_laplacian r3 v) (linear g k v) (linear h k' v) = - pdot g h * (3 / 4 * V)).
Proof.
  intros r3 dt o e1 e2 e3 Hdt HT v V.
  assert (Tot : total 6 (prism_ddt r3 dt v) = 3 / 4 * V / dt).
  { unfold prism_ddt. rewrite per_dt_pos by exact Hdt. cbv zeta. rewrite scale_total, over_total by (intros p _; unfold prism_N; cbn [rsum nth]; field).
    unfold measure. rewrite (psum_ext _ _ (fun p => r_w p * V)).
    - destruct (prism_points_eq r3) as (z & ->). cbn [psum fold_right r_w]. field. lra.
    - intros p _. f_equal. unfold v. rewrite straight_det. unfold V, Rdiv. rewrite Rabs_mult, (Rabs_right (/ 2)) by lra. reflexivity. }
  split; [exact Tot|]. intros g h k k'.
  assert (HD : forall p, In p (prism_points r3) -> det3 (J_of 6 (prism_G p) v) <> 0) by (intros p _; unfold v; rewrite straight_det; intros Z; apply HT; lra).
  destruct (C46_prism r3 dt v Hdt HD) as (_ & _ & _ & E & _). rewrite E, Tot. field. lra.
Qed.
Print Assumptions C46_prism_volume_refuted.
Example C46_prism_case : pdot (P 1 0 0) (pcross (P 0 1 0) (P 0 0 2)) <> 0.
Proof. unfold pdot, pcross. cbn. lra. Qed.

(** C108: the quality of elements and of meshes. *)
From Coq Require Import ZArith List Bool QArith Reals Qreals Lia Lra Psatz.
From Verif Require Import Prelude Vec ZMap Mesh_Model Mesh_Proofs HashGrid_Model Grid_Model Surf_Model Surf_Spec Surf_Proofs Split_Proofs Split_Props Cell_Model Rate_Model Rate_Spec Rate_Proofs.
Import ListNotations.
Open Scope Z_scope.

(** ** Single elements *)
Lemma tri_is p q r : triangle_quality p q r = quality (as_facet p q r).
Proof. unfold triangle_quality. rewrite ratio_facet. lra. Qed.
Theorem C108_triangle : forall p q r, long_sides p q r ->
  let x := distance p q in let y := distance q r in let z := distance r p in let A := tri_area p q r in
  (0 <= triangle_quality p q r <= 1)%R /\
  (triangle_quality p q r = 1%R <-> x = y /\ y = z) /\
  (A = 0%R -> triangle_quality p q r = 0%R) /\
  (Q2R real_eps * (x * y * z) < 2 * A * (x + y + z) -> triangle_quality p q r * (x * y * z * (x + y + z)) = 16 * (A * A))%R.
Proof.
  intros p q r (H1 & H2 & H3) x y z A. rewrite tri_is. destruct (triangle_rate p q r H1 H2 H3) as (B & C & D). split; [exact B|]. split; [exact C|]. split; [exact D|].
  intros Hd. apply (C91_quality (as_facet p q r)); [|exact Hd].
  intros k. unfold edge. change (sf_v (as_facet p q r)) with (p, q, r). set (t := (p, q, r)).
  destruct (tget_cases k) as [M|[M|M]]; [rewrite (tget_mod t k 0), (tget_mod t (k + 1) 1) by (Z.div_mod_to_equations; lia); exact H1|rewrite (tget_mod t k 1), (tget_mod t (k + 1) 2) by (Z.div_mod_to_equations; lia); exact H2|rewrite (tget_mod t k 2), (tget_mod t (k + 1) 0) by (Z.div_mod_to_equations; lia); exact H3].
Qed.
Print Assumptions C108_triangle.

Theorem C108_quadrilateral : forall p q r s,
  (quad_quality p q r s = None <-> p =v= q /\ q =v= r /\ r =v= s) /\
  (forall x, quad_quality p q r s = Some x ->
     (0 <= x <= 1)%R /\ (x = 1%R <-> square p q r s) /\
     (forall k, (0 <= k)%Q -> cross (vsub r p) (vsub s p) =v= vscale k (cross (vsub q p) (vsub r p)) \/ cross (vsub q p) (vsub r p) =v= vscale k (cross (vsub r p) (vsub s p)) ->
        (x * (distance p q * distance p q + distance q r * distance q r + distance r s * distance r s + distance s p * distance s p) = 4 * (tri_area p q r + tri_area p r s))%R)).
Proof.
  intros p q r s. assert (Z := corners_zero p q r s). unfold quad_quality. cbv zeta. change (norm2 (vsub q p) + norm2 (vsub r q) + norm2 (vsub s r) + norm2 (vsub p s))%Q with (corners_sum p q r s). destruct (Req_EM_T (Q2R (corners_sum p q r s)) 0) as [E|N].
  - split; [|discriminate]. split; [|reflexivity]. intros _. apply Z, Q2R_zero, E.
  - split; [split; [discriminate|]; intros H; exfalso; apply N; rewrite <- Q2R_0; apply Qeq_eqR, Z, H|]. intros x [= <-].
    assert (P : (0 <= Q2R (corners_sum p q r s))%R). { apply Q2R_pos. rewrite diagonals. assert (N1 := norm2_nonneg (vsub r p)). assert (N2 := norm2_nonneg (vsub s q)). assert (N3 := norm2_nonneg (gap p q r s)). Lqa.lra. }
    assert (P' : (0 < Q2R (corners_sum p q r s))%R) by lra. destruct (quad_rate p q r s P') as [B C]. split; [exact B|]. split; [exact C|].
    intros k Hk Hn. rewrite <- (halves p q r s k Hk Hn), !dist_sq, <- !Q2R_plus. change (norm2 (vsub q p) + norm2 (vsub r q) + norm2 (vsub s r) + norm2 (vsub p s))%Q with (corners_sum p q r s). field. exact N.
Qed.
Print Assumptions C108_quadrilateral.

Lemma area_same p q r : triangle_area p q r = tri_area p q r.
Proof. unfold triangle_area, tri_area, len. field. Qed.
Lemma area_nonneg p q r : (0 <= tri_area p q r)%R.
Proof. unfold tri_area. apply Rmult_le_pos; [apply sqrt_pos|lra]. Qed.
Lemma det_volume p q r s : (Rabs (tet_volume p q r s) * 6 = Rabs (Q2R (det_points p q r s)))%R.
Proof.
  unfold tet_volume. assert (E : (dot (vsub q p) (cross (vsub r p) (vsub s p)) == - det_points p q r s)%Q) by (unfold det_points, det3, dot, cross, vsub; cbn [cx cy cz]; ring).
  rewrite (Qeq_eqR _ _ E), Q2R_opp. unfold Rdiv. rewrite Rabs_mult, Rabs_Ropp, (Rabs_pos_eq (/ 6)) by lra. lra.
Qed.
Lemma longest_pos p q r s : (0 <= longest p q r s)%R.
Proof. destruct (longest_max p q r s) as (H & _). cbv zeta in H. assert (P := dist_pos p q). lra. Qed.
Lemma surface_pos p q r s : (0 <= tetra_surface p q r s)%R.
Proof. unfold tetra_surface. rewrite !area_same. assert (A1 := area_nonneg p q r). assert (A2 := area_nonneg p q s). assert (A3 := area_nonneg q r s). assert (A4 := area_nonneg r p s). lra. Qed.
Lemma tetra_value p q r s : (0 < longest p q r s)%R ->
  (0 <= tetra_quality p q r s <= 1)%R /\ (tetra_quality p q r s * (tetra_surface p q r s * longest p q r s) = sqrt 6 * Rabs (Q2R (det_points p q r s)))%R.
Proof.
  intros HL. destruct (inscribed p q r s HL) as [U _]. cbv zeta in U. assert (SP := surface_pos p q r s). unfold tetra_quality, tetra_volume. cbv zeta.
  rewrite (Rabs_pos_eq (tetra_surface p q r s * longest p q r s)) by (apply Rmult_le_pos; lra). assert (A6 : Rabs (Q2R (det_points p q r s) / 6) = (Rabs (Q2R (det_points p q r s)) * / 6)%R) by (unfold Rdiv; rewrite Rabs_mult, (Rabs_pos_eq (/ 6)) by lra; reflexivity). rewrite A6.
  set (D := Rabs (Q2R (det_points p q r s))) in *. assert (HD : (0 <= D)%R) by apply Rabs_pos. assert (P6 : (0 <= sqrt 6)%R) by apply sqrt_pos.
  set (x := (tetra_surface p q r s * longest p q r s)%R) in *. assert (PD : (0 <= sqrt 6 * D)%R) by now apply Rmult_le_pos.
  destruct (Rlt_dec 0 x) as [X|X].
  - assert (E : (6 * sqrt 6 * (D * / 6) / x * x = sqrt 6 * D)%R) by (field; lra). split; [|exact E]. split; apply Rmult_le_reg_r with x; lra.
  - assert (PX : (0 <= x)%R) by (unfold x; apply Rmult_le_pos; lra). split; [lra|]. lra.
Qed.
Theorem C108_tetrahedron : forall p q r s,
  let S := (tri_area p q r + tri_area p q s + tri_area q r s + tri_area r p s)%R in let V := Rabs (tet_volume p q r s) in
  let Q := tetra_quality p q r s in
  (0 <= Q <= 1)%R /\
  (Q = 1%R <-> exists L, (0 < L)%R /\ all_edges p q r s L) /\
  (Q = 0%R <-> V = 0%R) /\
  exists L, (Q * (S * L) = 6 * sqrt 6 * V)%R /\ In L [distance p q; distance q r; distance r p; distance p s; distance q s; distance r s] /\
    Forall (fun d => d <= L)%R [distance p q; distance q r; distance r p; distance p s; distance q s; distance r s].
Proof.
  intros p q r s S V Q. assert (HS : S = tetra_surface p q r s) by (unfold S, tetra_surface; rewrite !area_same; ring). assert (HV := det_volume p q r s). fold V in HV.
  assert (LM := longest_max p q r s). cbv zeta in LM. assert (P6 : (0 < sqrt 6)%R) by (apply sqrt_lt_R0; lra).
  assert (LI : In (longest p q r s) [distance p q; distance q r; distance r p; distance p s; distance q s; distance r s]).
  { apply (longest_among p q r s (fun x => In x [distance p q; distance q r; distance r p; distance p s; distance q s; distance r s])); cbn; auto 8. }
  assert (LF : Forall (fun d => d <= longest p q r s)%R [distance p q; distance q r; distance r p; distance p s; distance q s; distance r s]).
  { destruct LM as (M1 & M2 & M3 & M4 & M5 & M6). do 6 (apply Forall_cons; [assumption|]). apply Forall_nil. }
  assert (L0 := longest_pos p q r s). assert (S0 := surface_pos p q r s).
  destruct (Req_dec (longest p q r s) 0) as [LZ|LN].
  - (* a single point *)
    assert (EQ : Q = 0%R) by (unfold Q, tetra_quality; cbv zeta; rewrite LZ, Rmult_0_r, Rabs_R0; destruct (Rlt_dec 0 0); [lra|reflexivity]).
    assert (EV : V = 0%R).
    { destruct (heights p q r s) as (T1 & _). cbv zeta in T1. assert (C0 : len (cross (vsub q p) (vsub r p)) = 0%R).
      { apply Rsqr_0_uniq. unfold Rsqr. rewrite len_sqr, cross_gram. assert (Z1 : distance p q = 0%R) by (destruct LM as (M1 & _); assert (X := dist_pos p q); lra). assert (Z2 : Q2R (norm2 (vsub q p)) = 0%R) by (rewrite <- dist_sq, Z1; ring).
        assert (Zv := norm2_zero _ (Q2R_zero _ Z2)). rewrite Z2. assert (Zd : Q2R (dot (vsub q p) (vsub r p)) = 0%R). { rewrite <- Q2R_0. apply Qeq_eqR. rewrite Zv. unfold dot. cbn [vzero cx cy cz]. ring. } rewrite Zd. ring. }
      rewrite C0, Rmult_0_l, <- HV in T1. assert (X := Rabs_pos (tet_volume p q r s)). fold V in X. lra. }
    split; [rewrite EQ; lra|]. split; [|split].
    + rewrite EQ. split; [lra|]. intros (L & HL & A). destruct (regular p q r s L HL A) as (_ & E & _). lra.
    + rewrite EQ, EV. tauto.
    + exists (longest p q r s). rewrite EQ, EV. split; [ring|]. split; assumption.
  - assert (HL : (0 < longest p q r s)%R) by lra. destruct (tetra_value p q r s HL) as [B E]. fold Q in B, E. rewrite <- HV in E. destruct (inscribed p q r s HL) as [U Eqc]. cbv zeta in U, Eqc. rewrite <- HV in U, Eqc.
    assert (V0 : (0 <= V)%R) by apply Rabs_pos. split; [exact B|]. split; [|split].
    + split.
      * intros Q1. exists (longest p q r s). split; [exact HL|]. rewrite Q1, Rmult_1_l in E. apply Eqc; [|lra]. destruct (Req_dec V 0) as [VZ|VN]; [|lra]. exfalso.
        assert (X : Q = 0%R). { unfold Q, tetra_quality. cbv zeta. rewrite VZ, Rmult_0_l in HV. assert (TV : Rabs (tetra_volume p q r s) = 0%R) by (unfold tetra_volume, Rdiv; rewrite Rabs_mult, <- HV; ring). rewrite TV, Rmult_0_r. destruct (Rlt_dec _ _); [unfold Rdiv; ring|reflexivity]. } lra.
      * intros (L & HL' & A). destruct (regular p q r s L HL' A) as (R1 & R2 & R3). rewrite <- HV in R1. rewrite R2 in E. rewrite R1 in E. apply Rmult_eq_reg_r with (tetra_surface p q r s * L)%R; [lra|]. assert (0 < tetra_surface p q r s * L)%R by now apply Rmult_lt_0_compat. lra.
    + split.
      * intros Q0. rewrite Q0, Rmult_0_l in E. symmetry in E. apply Rmult_integral in E. destruct E; lra.
      * intros VZ. unfold Q, tetra_quality. cbv zeta. rewrite VZ, Rmult_0_l in HV. assert (TV : Rabs (tetra_volume p q r s) = 0%R) by (unfold tetra_volume, Rdiv; rewrite Rabs_mult, <- HV; ring). rewrite TV, Rmult_0_r. destruct (Rlt_dec _ _); [unfold Rdiv; ring|reflexivity].
    + exists (longest p q r s). split; [rewrite HS, E; ring|]. split; assumption.
Qed.
Print Assumptions C108_tetrahedron.

Theorem C108_prism : forall p q r s t u,
  prism_quality p q r s t u = ((triangle_quality p q r + triangle_quality s t u) / 2)%R /\
  (long_sides p q r -> long_sides s t u -> (0 <= prism_quality p q r s t u <= 1)%R /\
     (prism_quality p q r s t u = 1%R <-> (distance p q = distance q r /\ distance q r = distance r p) /\ distance s t = distance t u /\ distance t u = distance u s)).
Proof.
  intros p q r s t u. assert (E : prism_quality p q r s t u = ((triangle_quality p q r + triangle_quality s t u) / 2)%R) by (unfold prism_quality, triangle_quality; rewrite !ratio_facet; field).
  split; [exact E|]. intros H1 H2. destruct (C108_triangle p q r H1) as (B1 & C1 & _). destruct (C108_triangle s t u H2) as (B2 & C2 & _). cbv zeta in C1, C2. rewrite E. split; [lra|].
  rewrite <- C1, <- C2. split; [intros X; split; lra|intros [X Y]; rewrite X, Y; lra].
Qed.
Print Assumptions C108_prism.

(** Elements of other types, hexahedra among them, count as perfect whatever their nodes. *)
Theorem C108_other : forall m id e, t_get (m_elems m) id = Ok e ->
  ~ In (e_type e) [ET_TRIANGLE; ET_QUADRILATERAL; ET_TETRAHEDRON; ET_TRIANGULAR_PRISM] -> element_quality m id = Ok (Some 1%R).
Proof. intros m id e H N. unfold element_quality. rewrite H. cbn [bind]. destruct (e_type e); try reflexivity; exfalso; apply N; cbn; auto 6. Qed.
Print Assumptions C108_other.

(** ** Meshes *)
Lemma measured m e id : t_get (m_elems m) id = Ok e -> measurable m e -> exists x, element_quality m id = Ok (Some x) /\ (0 <= x <= 1)%R.
Proof.
  intros H M. unfold element_quality, measurable in *. rewrite H. cbn [bind]. destruct (e_type e); try (exists 1%R; split; [reflexivity|lra]).
  - destruct M as (p & q & r & -> & L). cbn [bind]. eexists. split; [reflexivity|]. now apply C108_triangle.
  - destruct M as (p & q & r & s & -> & N). cbn [bind]. destruct (C108_quadrilateral p q r s) as [Z B]. destruct (quad_quality p q r s) as [x|]; [|exfalso; apply N, Z; reflexivity]. exists x. split; [reflexivity|]. now apply (B x).
  - destruct M as (p & q & r & s & ->). cbn [bind]. eexists. split; [reflexivity|]. apply C108_tetrahedron.
  - destruct M as (p & q & r & s & t & u & -> & L1 & L2). cbn [bind]. eexists. split; [reflexivity|]. now apply C108_prism.
Qed.
Lemma min_some x y : std_min (Some x) (Some y) = Some (Rmin y x).
Proof. unfold std_min, less. unfold Rmin. destruct (Rlt_dec y x), (Rle_dec y x); try reflexivity; f_equal; lra. Qed.
Lemma max_some x y : std_max (Some x) (Some y) = Some (Rmax y x).
Proof. unfold std_max, less. unfold Rmax. destruct (Rlt_dec x y), (Rle_dec y x); try reflexivity; f_equal; lra. Qed.
Definition total_of (rate : Z -> R) (ids : list Z) : R := fold_right Rplus 0%R (map rate ids).
Lemma total_app rate a b : total_of rate (a ++ b) = (total_of rate a + total_of rate b)%R.
Proof. unfold total_of. rewrite map_app, fold_right_app. induction (map rate a) as [|x l IH]; cbn [fold_right]; [ring|]. rewrite IH. ring. Qed.
Theorem C108_mesh : forall m, all_measurable m ->
  exists (rate : Z -> R) lo hi ave,
    (forall id, In id (t_ids (m_elems m)) -> element_quality m id = Ok (Some (rate id)) /\ (0 <= rate id <= 1)%R) /\
    mesh_quality m = Ok (Some lo, Some hi, Some ave) /\
    (forall id, In id (t_ids (m_elems m)) -> (lo <= rate id <= hi)%R) /\
    (t_ids (m_elems m) <> [] ->
       (exists id, In id (t_ids (m_elems m)) /\ rate id = lo) /\ (exists id, In id (t_ids (m_elems m)) /\ rate id = hi) /\
       (ave * IZR (zlen (t_ids (m_elems m))) = fold_right Rplus 0 (map rate (t_ids (m_elems m))))%R /\ (lo <= ave <= hi)%R) /\
    (t_ids (m_elems m) = [] -> lo = 1%R /\ hi = 0%R /\ ave = 0%R).
Proof.
  intros m H. set (ids := t_ids (m_elems m)).
  set (rate := fun id => match element_quality m id with Ok (Some x) => x | _ => 0%R end).
  assert (HR : forall id, In id ids -> element_quality m id = Ok (Some (rate id)) /\ (0 <= rate id <= 1)%R).
  { intros id I. destruct (H id I) as (e & He & Me). destruct (measured m e id He Me) as (x & E & B). unfold rate. rewrite E. split; [reflexivity|exact B]. }
  set (step := fun (st : option R * option R * option R * Z) id => q <- element_quality m id ;; let '(lo, hi, total, n) := st in Ok (std_min q lo, std_max q hi, plus total q, n + 1)).
  assert (Inv : exists lo hi, foldM step ids (Some 1%R, Some 0%R, Some 0%R, 0) = Ok (Some lo, Some hi, Some (total_of rate ids), zlen ids) /\
     (forall id, In id ids -> (lo <= rate id <= hi)%R) /\ (ids <> [] -> (exists id, In id ids /\ rate id = lo) /\ (exists id, In id ids /\ rate id = hi)) /\ (ids = [] -> lo = 1%R /\ hi = 0%R) /\ (lo <= 1 /\ 0 <= hi)%R).
  { assert (Sub : forall id, In id ids -> In id ids) by auto. revert Sub. generalize ids at 1 3 4 5 6 7 8 9 10 as l. intros l. induction l as [|i l IH] using rev_ind; intros Sub.
    - exists 1%R, 0%R. split; [reflexivity|]. split; [intros ? []|]. split; [congruence|]. split; [auto|lra].
    - destruct IH as (lo & hi & E & B & A & Z & W); [intros id I; apply Sub, in_or_app; now left|]. destruct (HR i) as [Ei Bi]; [apply Sub, in_or_app; right; now left|].
      exists (Rmin lo (rate i)), (Rmax hi (rate i)). split.
      + assert (FA : forall a b st, foldM step (a ++ b) st = (x <- foldM step a st ;; foldM step b x)) by (intros a; induction a as [|x a IHa]; intros b st; [reflexivity|]; cbn [app foldM]; destruct (step st x); cbn [bind]; auto). rewrite FA, E. cbn [bind foldM]. unfold step at 1. rewrite Ei. cbn [bind]. rewrite min_some, max_some. cbn [plus]. rewrite total_app. unfold total_of at 3. cbn [map fold_right]. rewrite Rplus_0_r. unfold zlen. rewrite app_length. cbn [length]. do 3 f_equal. lia.
      + assert (X1 := Rmin_l lo (rate i)). assert (X2 := Rmin_r lo (rate i)). assert (X3 := Rmax_l hi (rate i)). assert (X4 := Rmax_r hi (rate i)).
        split; [|split; [|split; [|lra]]].
        * intros id I. apply in_app_or in I. destruct I as [I|[<-|[]]]; [specialize (B id I)|]; lra.
        * intros _. destruct l as [|i0 l0].
          { destruct (Z eq_refl) as [-> ->]. split; exists i; (split; [now left|]); [rewrite Rmin_right by lra|rewrite Rmax_right by lra]; reflexivity. }
          { destruct A as [(a & Ia & Ea) (b & Ib & Eb)]; [discriminate|]. split.
            - unfold Rmin. destruct (Rle_dec lo (rate i)); [exists a; split; [apply in_or_app; now left|exact Ea]|exists i; split; [apply in_or_app; right; now left|reflexivity]].
            - unfold Rmax. destruct (Rle_dec hi (rate i)); [exists i; split; [apply in_or_app; right; now left|reflexivity]|exists b; split; [apply in_or_app; now left|exact Eb]]. }
        * intros C. destruct l; discriminate. }
  destruct Inv as (lo & hi & E & B & A & Z & W).
  assert (EM : mesh_quality m = Ok (Some lo, Some hi, Some (if 0 <? zlen ids then total_of rate ids / IZR (zlen ids) else 0)%R)).
  { unfold mesh_quality. fold step. fold ids. rewrite E. cbn [bind]. destruct (0 <? zlen ids); reflexivity. }
  exists rate, lo, hi, (if 0 <? zlen ids then total_of rate ids / IZR (zlen ids) else 0)%R. split; [exact HR|]. split; [exact EM|]. split; [exact B|]. split.
  - intros Ne. destruct (A Ne) as [A1 A2]. split; [exact A1|]. split; [exact A2|]. assert (Lp : 0 < zlen ids) by (unfold zlen; destruct ids; [congruence|cbn [length]; lia]). rewrite (proj2 (Z.ltb_lt 0 (zlen ids)) Lp).
    assert (Rp : (0 < IZR (zlen ids))%R) by now apply IZR_lt. fold (total_of rate ids). split; [field; lra|].
    assert (T : (lo * IZR (zlen ids) <= total_of rate ids <= hi * IZR (zlen ids))%R).
    { clear - B. revert B. generalize ids as l. intros l. induction l as [|i l IH]; intros B; [unfold total_of, zlen; cbn; lra|]. destruct IH as [I1 I2]; [intros id I; apply B; now right|]. assert (Bi := B i (or_introl eq_refl)).
      change (total_of rate (i :: l)) with (rate i + total_of rate l)%R. replace (zlen (i :: l)) with (1 + zlen l) by (unfold zlen; cbn [length]; lia). rewrite plus_IZR. lra. }
    split; apply Rmult_le_reg_r with (IZR (zlen ids)); try assumption; unfold Rdiv; rewrite Rmult_assoc, Rinv_l by lra; lra.
  - intros E0. destruct (Z E0) as [-> ->]. rewrite E0. auto.
Qed.
Print Assumptions C108_mesh.

(** ** Cases *)
Definition at_ (x y z : Z) : coord := Coord (inject_Z x) (inject_Z y) (inject_Z z).
Lemma dist_is a b (q : Q) (d : R) : (norm2 (vsub b a) == q)%Q -> (0 <= d)%R -> Q2R q = (d * d)%R -> distance a b = d.
Proof. intros E Hd Eq. unfold distance. rewrite (Qeq_eqR _ _ E), Eq. now apply sqrt_square. Qed.
Lemma dist_sqrt a b (q : Q) : (norm2 (vsub b a) == q)%Q -> distance a b = sqrt (Q2R q).
Proof. intros E. unfold distance. f_equal. now apply Qeq_eqR. Qed.
Lemma long_by p q r : Qlt_bool real_eps (norm2 (vsub q p)) && Qlt_bool real_eps (norm2 (vsub r q)) && Qlt_bool real_eps (norm2 (vsub p r)) = true -> long_sides p q r.
Proof. intros H. apply andb_prop in H. destruct H as [H H3]. apply andb_prop in H. destruct H as [H1 H2]. unfold long_sides. rewrite !dist_sq. split; [|split]; apply Qlt_Rlt; now apply Qlt_bool_iff. Qed.
(** A mesh with an equilateral triangle (0), a rectangle 1 by 2 (1), a regular tetrahedron (2), a flat triangle (3), a quadrilateral that is a single point (4) and
    a quadrilateral with a reflex corner (5). *)
Definition places : table coord :=
  fold_left (fun t x => t_add t (fst x) (snd x)) [(0, at_ 1 0 0); (1, at_ 0 1 0); (2, at_ 0 0 1); (3, at_ 0 0 0); (4, at_ 1 2 0); (5, at_ 0 2 0); (6, at_ 1 1 0); (7, at_ 1 0 1); (8, at_ 0 1 1); (9, at_ 2 0 0); (10, at_ 4 0 0); (11, at_ 0 4 0)] t_empty.
Definition shape (k : Z) : element :=
  if k =? 0 then Element ET_TRIANGLE [0; 1; 2] [] else if k =? 1 then Element ET_QUADRILATERAL [3; 0; 4; 5] [] else if k =? 2 then Element ET_TETRAHEDRON [3; 6; 7; 8] []
  else if k =? 3 then Element ET_TRIANGLE [3; 0; 9] [] else if k =? 4 then Element ET_QUADRILATERAL [3; 3; 3; 3] [] else Element ET_QUADRILATERAL [3; 10; 6; 11] [].
Definition shapes (l : list Z) : mesh := Mesh places t_empty (fold_left (fun t k => t_add t k (shape k)) l t_empty).
Lemma rate0 : triangle_quality (at_ 1 0 0) (at_ 0 1 0) (at_ 0 0 1) = 1%R.
Proof. apply (proj1 (proj2 (C108_triangle (at_ 1 0 0) (at_ 0 1 0) (at_ 0 0 1) (long_by (at_ 1 0 0) (at_ 0 1 0) (at_ 0 0 1) eq_refl)))). rewrite !(dist_sqrt _ _ 2) by reflexivity. auto. Qed.
Lemma len_is v (q : Q) (d : R) : (norm2 v == q)%Q -> (0 <= d)%R -> Q2R q = (d * d)%R -> len v = d.
Proof. intros E Hd Eq. unfold len. rewrite (Qeq_eqR _ _ E), Eq. now apply sqrt_square. Qed.
Lemma rate1 : quad_quality (at_ 0 0 0) (at_ 1 0 0) (at_ 1 2 0) (at_ 0 2 0) = Some (4 / 5)%R.
Proof.
  unfold quad_quality, quad_area. cbv zeta. rewrite (len_is _ 16 4%R) by (try reflexivity; try lra; unfold Q2R; cbn; lra). match goal with |- context [Q2R ?x] => assert (E : Q2R x = 10%R) by (unfold Q2R; cbn; lra) end. rewrite E. destruct (Req_EM_T 10 0) as [C|_]; [lra|]. f_equal. field.
Qed.
Lemma rate2 : tetra_quality (at_ 0 0 0) (at_ 1 1 0) (at_ 1 0 1) (at_ 0 1 1) = 1%R.
Proof. apply C108_tetrahedron. exists (sqrt (Q2R 2)). split; [apply sqrt_lt_R0; unfold Q2R; cbn; lra|]. unfold all_edges. rewrite !(dist_sqrt _ _ 2) by reflexivity. auto 8. Qed.
Lemma rate3 : triangle_quality (at_ 0 0 0) (at_ 1 0 0) (at_ 2 0 0) = 0%R.
Proof.
  apply (proj1 (proj2 (proj2 (C108_triangle (at_ 0 0 0) (at_ 1 0 0) (at_ 2 0 0) (long_by (at_ 0 0 0) (at_ 1 0 0) (at_ 2 0 0) eq_refl))))). unfold tri_area. rewrite (Qeq_eqR _ 0) by reflexivity. rewrite Q2R_0, sqrt_0. lra.
Qed.
Lemma rate4 : quad_quality (at_ 0 0 0) (at_ 0 0 0) (at_ 0 0 0) (at_ 0 0 0) = None.
Proof. apply C108_quadrilateral. split; [|split]; reflexivity. Qed.
Example C108_case : all_measurable (shapes [0; 1; 2; 3]) /\ mesh_quality (shapes [0; 1; 2]) = Ok (Some (4 / 5)%R, Some 1%R, Some (14 / 15)%R).
Proof.
  split.
  - intros id I. change (t_ids (m_elems (shapes [0; 1; 2; 3]))) with [0; 1; 2; 3] in I. destruct I as [<-|[<-|[<-|[<-|[]]]]]; eexists; (split; [reflexivity|]).
    + exists (at_ 1 0 0), (at_ 0 1 0), (at_ 0 0 1). split; [reflexivity|]. apply long_by. vm_compute. reflexivity.
    + exists (at_ 0 0 0), (at_ 1 0 0), (at_ 1 2 0), (at_ 0 2 0). split; [reflexivity|]. intros ((H & _) & _). vm_compute in H. discriminate.
    + exists (at_ 0 0 0), (at_ 1 1 0), (at_ 1 0 1), (at_ 0 1 1). reflexivity.
    + exists (at_ 0 0 0), (at_ 1 0 0), (at_ 2 0 0). split; [reflexivity|]. apply long_by. vm_compute. reflexivity.
  - unfold mesh_quality. change (t_ids (m_elems (shapes [0; 1; 2]))) with [0; 1; 2]. cbn [foldM].
    change (element_quality (shapes [0; 1; 2]) 0) with (Ok (Some (triangle_quality (at_ 1 0 0) (at_ 0 1 0) (at_ 0 0 1)))). change (element_quality (shapes [0; 1; 2]) 1) with (Ok (quad_quality (at_ 0 0 0) (at_ 1 0 0) (at_ 1 2 0) (at_ 0 2 0))). change (element_quality (shapes [0; 1; 2]) 2) with (Ok (Some (tetra_quality (at_ 0 0 0) (at_ 1 1 0) (at_ 1 0 1) (at_ 0 1 1)))).
    rewrite rate0, rate1, rate2. cbn [bind plus]. rewrite !min_some, !max_some. change (0 <? 0 + 1 + 1 + 1) with true. cbn iota. change (0 + 1 + 1 + 1) with 3.
    rewrite (Rmin_left 1 1), (Rmin_right 1 (4 / 5)), (Rmin_left (4 / 5) 1) by lra. rewrite (Rmax_right 0 1), (Rmax_left 1 (4 / 5)), (Rmax_left 1 1) by lra. match goal with |- Ok (_, _, Some ?x) = _ => replace x with (14 / 15)%R by lra end. reflexivity.
Qed.

(** ** Where qualities mislead *)
(** A triangle with all sides at most 1.5e-8 long, even one whose three corners are the same point, has quality 4/3: CGeoVector::angle answers a right angle for short
    vectors. In the minimum over a mesh it counts as perfect. *)
Theorem C108_small_refuted : forall p q r, (norm2 (vsub q p) <= real_eps)%Q -> (norm2 (vsub r q) <= real_eps)%Q -> (norm2 (vsub p r) <= real_eps)%Q -> triangle_quality p q r = (4 / 3)%R.
Proof.
  intros p q r H1 H2 H3. assert (A : forall u w, (norm2 u <= real_eps)%Q -> sin (angle u w) = 1%R).
  { intros u w H. unfold angle. cbv zeta. replace (Qlt_bool real_eps (norm2 u)) with false; [|symmetry; apply Bool.not_true_is_false; rewrite Qlt_bool_iff; apply Qle_not_lt, H]. cbn [andb]. rewrite Rmax_left, Rmin_left by lra. rewrite acos_0. apply sin_PI2. }
  unfold triangle_quality, sine_ratio. cbv zeta. rewrite !A by assumption. assert (Q2R real_eps < 1)%R by (unfold Q2R; cbn; lra). destruct (Rlt_dec _ _) as [_|C]; [field|lra].
Qed.
Print Assumptions C108_small_refuted.
(** The quality of a prism looks only at its two ends: a prism without height, both ends the same equilateral triangle, is rated perfect. *)
Theorem C108_flat_prism_refuted : exists p q r, prism_quality p q r p q r = 1%R /\ long_sides p q r.
Proof. exists (at_ 1 0 0), (at_ 0 1 0), (at_ 0 0 1). split; [rewrite (proj1 (C108_prism _ _ _ _ _ _)), rate0; lra|]. apply long_by. vm_compute. reflexivity. Qed.
Print Assumptions C108_flat_prism_refuted.
(** A plane quadrilateral with a reflex corner is rated better (4/13) than a rectangle 1 by 8 (16/65): the rating does not tell whether an element is valid. *)
Theorem C108_reflex_refuted : exists p q r s p' q' r' s' x x', quad_quality p q r s = Some x /\ quad_quality p' q' r' s' = Some x' /\ (x' < x)%R /\
  (* the corner r turns the other way *)
  (0 < cz (cross (vsub q p) (vsub s p)) /\ cz (cross (vsub r q) (vsub s r)) < 0 /\ cz p == 0 /\ cz q == 0 /\ cz r == 0 /\ cz s == 0)%Q /\
  (* a rectangle *)
  vadd p' r' =v= vadd q' s' /\ (dot (vsub q' p') (vsub s' p') == 0)%Q.
Proof.
  exists (at_ 0 0 0), (at_ 4 0 0), (at_ 1 1 0), (at_ 0 4 0), (at_ 0 0 0), (at_ 1 0 0), (at_ 1 8 0), (at_ 0 8 0), (4 / 13)%R, (16 / 65)%R. split; [|split; [|split; [lra|split]]].
  - unfold quad_quality, quad_area. cbv zeta. rewrite (len_is _ 64 8%R) by (try reflexivity; try lra; unfold Q2R; cbn; lra). match goal with |- context [Q2R ?x] => assert (E : Q2R x = 52%R) by (unfold Q2R; cbn; lra) end. rewrite E. destruct (Req_EM_T 52 0) as [C|_]; [lra|]. f_equal. field.
  - unfold quad_quality, quad_area. cbv zeta. rewrite (len_is _ 256 16%R) by (try reflexivity; try lra; unfold Q2R; cbn; lra). match goal with |- context [Q2R ?x] => assert (E : Q2R x = 130%R) by (unfold Q2R; cbn; lra) end. rewrite E. destruct (Req_EM_T 130 0) as [C|_]; [lra|]. f_equal. field.
  - vm_compute. repeat split; reflexivity.
  - split; [split; [|split]|]; reflexivity.
Qed.
Print Assumptions C108_reflex_refuted.
(** A quadrilateral that is a single point has the quality 0/0; the minimum and the maximum then start anew with the next element, so that a flat triangle before it is
    forgotten: a mesh with a flat triangle (quality 0) is reported with minimum 1. *)
Theorem C108_forgotten_refuted : exists m id, In id (t_ids (m_elems m)) /\ element_quality m id = Ok (Some 0%R) /\ mesh_quality m = Ok (Some 1%R, Some 1%R, None).
Proof.
  exists (shapes [3; 4; 0]), 3. split; [now left|]. change (element_quality (shapes [3; 4; 0]) 3) with (Ok (Some (triangle_quality (at_ 0 0 0) (at_ 1 0 0) (at_ 2 0 0)))). split; [now rewrite rate3|].
  unfold mesh_quality. change (t_ids (m_elems (shapes [3; 4; 0]))) with [3; 4; 0]. cbn [foldM].
  change (element_quality (shapes [3; 4; 0]) 3) with (Ok (Some (triangle_quality (at_ 0 0 0) (at_ 1 0 0) (at_ 2 0 0)))). change (element_quality (shapes [3; 4; 0]) 4) with (Ok (quad_quality (at_ 0 0 0) (at_ 0 0 0) (at_ 0 0 0) (at_ 0 0 0))). change (element_quality (shapes [3; 4; 0]) 0) with (Ok (Some (triangle_quality (at_ 1 0 0) (at_ 0 1 0) (at_ 0 0 1)))).
  rewrite rate3, rate4, rate0. cbn [bind plus]. rewrite min_some, max_some. reflexivity.
Qed.
Print Assumptions C108_forgotten_refuted.

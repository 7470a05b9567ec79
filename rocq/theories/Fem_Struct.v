(** C47: structural elements. *)
From Coq Require Import Reals List Lia Lra Psatz.
From Verif Require Import Fem_Model Fem_Spec Fem_Proofs.
Import ListNotations.
Open Scope R_scope.

(** ** Vocabulary *)
(** An affine displacement field: translation t plus gradient (rows x, y, z). *)
Record affine := Affine { t_x : R; t_y : R; t_z : R; g_x : pt; g_y : pt; g_z : pt }.
Definition move (f : affine) (p : pt) : pt := P (t_x f + pdot (g_x f) p) (t_y f + pdot (g_y f) p) (t_z f + pdot (g_z f) p).
(** Nodal unknowns: two per vertex for triangles, three for tetrahedra. *)
Definition nodal (dofs : nat) (f : affine) (vs : list pt) : nat -> R := fun i => coordinate (i mod dofs) (move f (nth (i / dofs) vs origin)).
(** Strains xx, yy, xy (twice the shear) in the plane; xx, yy, zz, yz, xz, xy in space. *)
Definition strain2 (f : affine) : R * R * R := (px (g_x f), py (g_y f), py (g_x f) + px (g_y f)).
Definition strain3 (f : affine) : list R := [px (g_x f); py (g_y f); pz (g_z f); pz (g_y f) + py (g_z f); pz (g_x f) + px (g_z f); py (g_x f) + px (g_y f)].
(** Infinitesimally rigid: translation and rotation, no strain. *)
Definition rigid2 (f : affine) : Prop := strain2 f = (0, 0, 0).
Definition rigid3 (f : affine) : Prop := List.Forall (fun x => x = 0) (strain3 f).
Definition force (n : nat) (K : rmat) (u : nat -> R) (i : nat) : R := rsum n (fun j => K i j * u j).
(** Plane stress (per area): density of the product of stress of f and strain of h. *)
Definition plane_energy (E v : R) (h f : affine) : R :=
  let '(hx, hy, hs) := strain2 h in let '(fx, fy, fs) := strain2 f in E / (1 - v * v) * (hx * (fx + v * fy) + hy * (v * fx + fy) + hs * ((1 - v) / 2 * fs)).

Lemma form_BtDB n d B D v u : form n (BtDB d B D) v u = rsum d (fun k => rsum n (fun i => B k i * v i) * rsum d (fun m => D k m * rsum n (fun j => B m j * u j))).
Proof.
  unfold form, BtDB. transitivity (rsum n (fun i => rsum d (fun k => B k i * v i * rsum d (fun m => D k m * rsum n (fun j => B m j * u j))))).
  - apply rsum_ext. intros i _. rewrite (rsum_ext n _ (fun j => rsum d (fun k => B k i * rsum d (fun m => D k m * (B m j * u j))))).
    2:{ intros j _. rewrite <- rsum_scale_r. apply rsum_ext. intros k _. rewrite Rmult_assoc. f_equal. rewrite <- rsum_scale_r. apply rsum_ext. intros; ring. }
    rewrite rsum_swap, <- rsum_scale. apply rsum_ext. intros k _. rewrite rsum_scale, rsum_swap.
    rewrite (rsum_ext d (fun j => rsum n _) (fun m => D k m * rsum n (fun j => B m j * u j))) by (intros; now rewrite rsum_scale). ring.
  - rewrite rsum_swap. apply rsum_ext. intros k _. apply rsum_scale_r.
Qed.
Lemma force_BtDB n d B D u i : force n (BtDB d B D) u i = rsum d (fun k => B k i * rsum d (fun m => D k m * rsum n (fun j => B m j * u j))).
Proof.
  unfold force, BtDB. rewrite (rsum_ext n _ (fun j => rsum d (fun k => B k i * rsum d (fun m => D k m * (B m j * u j))))).
  2:{ intros j _. rewrite <- rsum_scale_r. apply rsum_ext. intros k _. rewrite Rmult_assoc. f_equal. rewrite <- rsum_scale_r. apply rsum_ext. intros; ring. }
  rewrite rsum_swap. apply rsum_ext. intros k _. rewrite rsum_scale, rsum_swap. f_equal. apply rsum_ext. intros. now rewrite rsum_scale.
Qed.
Lemma force_scale n c K u i : force n (mscale c K) u i = c * force n K u i.
Proof. unfold force, mscale. rewrite <- rsum_scale. apply rsum_ext. intros; ring. Qed.
Lemma BtDB_symmetric n d B D : symmetric d D -> symmetric n (BtDB d B D).
Proof.
  intros HD i j _ _. unfold BtDB. rewrite (rsum_ext d _ (fun k => rsum d (fun m => B k i * (D k m * B m j)))) by (intros; now rewrite rsum_scale). rewrite rsum_swap.
  apply rsum_ext. intros m Hm. rewrite <- rsum_scale. apply rsum_ext. intros k Hk. rewrite (HD k m) by assumption. ring.
Qed.

(** ** Constant-strain triangle in the plane z = 0 *)
Section Tri.
Context (a b c : pt) (Za : pz a = 0) (Zb : pz b = 0) (Zc : pz c = 0) (HA : 0 < tri_area a b c).
Lemma flat_local p : local a b c p = p.
Proof. unfold local. rewrite Za, Zb, Zc. destruct (Req_EM_T 0 0); [reflexivity|contradiction]. Qed.
Definition D_of : R := (px b - px a) * (py c - py a) - (px c - px a) * (py b - py a).
Lemma D_area : exists s, s * s = 1 /\ D_of = s * (2 * tri_area a b c).
Proof.
  assert (N : pdot (tri_normal a b c) (tri_normal a b c) = D_of * D_of) by (unfold tri_normal, pdot, pcross, psub, D_of; cbn; rewrite Za, Zb, Zc; ring).
  assert (Q : 2 * tri_area a b c = pnorm (tri_normal a b c)) by (unfold tri_area; field). rewrite Q.
  destruct (Rle_dec 0 D_of); [exists 1|exists (-1)]; (split; [ring|]).
  - rewrite (pnorm_unique _ D_of); [ring|assumption|congruence].
  - rewrite (pnorm_unique _ (- D_of)); [ring|lra|rewrite N; ring].
Qed.
Lemma cst_rows u :
  rsum 6 (fun j => tri_strain a b c 0%nat j * u j) = (py c - py a) * (u 2%nat - u 0%nat) - (py b - py a) * (u 4%nat - u 0%nat) /\
  rsum 6 (fun j => tri_strain a b c 1%nat j * u j) = - (px c - px a) * (u 3%nat - u 1%nat) + (px b - px a) * (u 5%nat - u 1%nat) /\
  rsum 6 (fun j => tri_strain a b c 2%nat j * u j) = (- (px c - px a) * (u 2%nat - u 0%nat) + (px b - px a) * (u 4%nat - u 0%nat)) + ((py c - py a) * (u 3%nat - u 1%nat) - (py b - py a) * (u 5%nat - u 1%nat)).
Proof. unfold tri_strain. rewrite !flat_local. unfold of_rows. cbn [rsum nth]. repeat split; ring. Qed.
Lemma cst_strain f :
  rsum 6 (fun j => tri_strain a b c 0%nat j * nodal 2 f [a; b; c] j) = D_of * fst (fst (strain2 f)) /\
  rsum 6 (fun j => tri_strain a b c 1%nat j * nodal 2 f [a; b; c] j) = D_of * snd (fst (strain2 f)) /\
  rsum 6 (fun j => tri_strain a b c 2%nat j * nodal 2 f [a; b; c] j) = D_of * snd (strain2 f).
Proof.
  destruct (cst_rows (nodal 2 f [a; b; c])) as (-> & -> & ->). unfold nodal, strain2, D_of. cbn [fst snd].
  cbn [Nat.modulo Nat.div Nat.divmod Nat.sub fst snd nth coordinate move px py]. unfold pdot. rewrite Za, Zb, Zc. repeat split; ring.
Qed.
Lemma cst_eq E v t : cst_stiffness E v t a b c = mscale (tri_area a b c * t) (BtDB 3 (mscale (1 / (2 * tri_area a b c)) (tri_strain a b c)) (plane_stress E v)).
Proof. unfold cst_stiffness. destruct (Rlt_dec 0 (tri_area a b c)); [reflexivity|contradiction]. Qed.
End Tri.

(** Every triangle, Young's modulus E > 0 and Poisson ratio -1 < v < 1: symmetric; rigid motions give no force; the energy of affine
    displacements is exact; never negative, and zero only for rigid motions. *)
Theorem C47_triangle : forall E v thickness a b c, pz a = 0 -> pz b = 0 -> pz c = 0 -> 0 < tri_area a b c -> 0 < thickness -> 0 < E -> -1 < v < 1 ->
  let K := cst_stiffness E v thickness a b c in
  symmetric 6 K /\
  (forall f i, rigid2 f -> force 6 K (nodal 2 f [a; b; c]) i = 0) /\
  (forall h f, form 6 K (nodal 2 h [a; b; c]) (nodal 2 f [a; b; c]) = plane_energy E v h f * (tri_area a b c * thickness)) /\
  (forall u, 0 <= form 6 K u u) /\
  (forall u, form 6 K u u = 0 -> exists tx ty w, let rot := fun p => (tx - w * py p, ty + w * px p) in
     (u 0%nat, u 1%nat) = rot a /\ (u 2%nat, u 3%nat) = rot b /\ (u 4%nat, u 5%nat) = rot c).
Proof.
  intros E v t a b c Za Zb Zc HA Ht HE Hv K. unfold K. rewrite (cst_eq a b c HA). set (A := tri_area a b c) in *.
  destruct (D_area a b c Za Zb Zc) as (s & S2 & HD). fold A in HD. set (i := 1 / (2 * A)). assert (Hi : i * (2 * A) = 1) by (unfold i; field; lra).
  assert (Hc : 0 < E / (1 - v * v)) by (apply Rdiv_lt_0_compat; nra).
  assert (St : forall f k, (k < 3)%nat -> rsum 6 (fun j => mscale i (tri_strain a b c) k j * nodal 2 f [a; b; c] j) = s * match k with O => fst (fst (strain2 f)) | S O => snd (fst (strain2 f)) | _ => snd (strain2 f) end).
  { intros f k Hk. rewrite rows_scale. destruct (cst_strain a b c Za Zb Zc f) as (R0 & R1 & R2). rewrite HD in R0, R1, R2.
    destruct k as [|[|[|]]]; [| | |lia]; [rewrite R0|rewrite R1|rewrite R2]; match goal with |- i * (s * (2 * A) * ?x) = _ => transitivity (s * (i * (2 * A)) * x); [ring|rewrite Hi; ring] end. }
  assert (En : forall x y z, 0 <= x * (x + v * y) + y * (v * x + y) + z * ((1 - v) / 2 * z) /\ (x * (x + v * y) + y * (v * x + y) + z * ((1 - v) / 2 * z) = 0 -> x = 0 /\ y = 0 /\ z = 0)).
  { intros x y z. assert (I : x * (x + v * y) + y * (v * x + y) + z * ((1 - v) / 2 * z) = (1 - v) / 2 * ((x - y) * (x - y)) + (1 + v) / 2 * ((x + y) * (x + y)) + (1 - v) / 2 * (z * z)) by field.
    rewrite I. assert (0 <= (x - y) * (x - y)) by apply Rle_0_sqr. assert (0 <= (x + y) * (x + y)) by apply Rle_0_sqr. assert (0 <= z * z) by apply Rle_0_sqr.
    assert (0 <= (1 - v) / 2 * ((x - y) * (x - y))) by (apply Rmult_le_pos; lra). assert (0 <= (1 + v) / 2 * ((x + y) * (x + y))) by (apply Rmult_le_pos; lra). assert (0 <= (1 - v) / 2 * (z * z)) by (apply Rmult_le_pos; lra).
    split; [lra|]. intros Z. assert (X1 : (x - y) * (x - y) = 0) by nra. assert (X2 : (x + y) * (x + y) = 0) by nra. assert (X3 : z * z = 0) by nra.
    apply Rsqr_0_uniq in X1, X2, X3. repeat split; lra. }
  assert (Fo : forall w u, form 6 (mscale (A * t) (BtDB 3 (mscale i (tri_strain a b c)) (plane_stress E v))) w u =
     A * t * (E / (1 - v * v)) * (let B k w := rsum 6 (fun j => mscale i (tri_strain a b c) k j * w j) in B 0%nat w * (B 0%nat u + v * B 1%nat u) + B 1%nat w * (v * B 0%nat u + B 1%nat u) + B 2%nat w * ((1 - v) / 2 * B 2%nat u))).
  { intros w u. rewrite form_scale, form_BtDB. cbv zeta. pose (B := fun k (w : nat -> R) => rsum 6 (fun j => mscale i (tri_strain a b c) k j * w j)).
    change (A * t * rsum 3 (fun k => B k w * rsum 3 (fun m => plane_stress E v k m * B m u)) = A * t * (E / (1 - v * v)) * (B 0%nat w * (B 0%nat u + v * B 1%nat u) + B 1%nat w * (v * B 0%nat u + B 1%nat u) + B 2%nat w * ((1 - v) / 2 * B 2%nat u))).
    clearbody B. unfold plane_stress, mscale, of_rows. cbn [rsum nth]. field. nra. }
  repeat match goal with |- _ /\ _ => split end.
  - apply scale_symmetric, BtDB_symmetric. unfold plane_stress. apply scale_symmetric. intros k m Hk Hm. destruct k as [|[|[|]]], m as [|[|[|]]]; try lia; reflexivity.
  - intros f k Rf. rewrite force_scale, force_BtDB. rewrite rsum_zero; [ring|]. intros q Hq. rewrite rsum_zero; [ring|]. intros m Hm. rewrite St by exact Hm. unfold rigid2 in Rf. rewrite Rf. destruct m as [|[|]]; cbn; ring.
  - intros h f. rewrite Fo. cbv beta zeta. rewrite !St by lia. unfold plane_energy. destruct (strain2 h) as [[hx hy] hs]. destruct (strain2 f) as [[fx fy] fs]. cbn [fst snd].
    transitivity (s * s * (E / (1 - v * v) * (hx * (fx + v * fy) + hy * (v * fx + fy) + hs * ((1 - v) / 2 * fs)) * (A * t))); [field; nra|]. rewrite S2. ring.
  - intros u. rewrite Fo. cbv beta zeta. match goal with |- 0 <= _ * (?x * _ + ?y * _ + ?z * _) => pose proof (proj1 (En x y z)) end. apply Rmult_le_pos; [|assumption]. apply Rmult_le_pos; [nra|lra].
  - intros u. rewrite Fo. cbv beta zeta. intros Z. match type of Z with _ * (?x * _ + ?y * _ + ?z * _) = 0 => pose proof (proj2 (En x y z)) as Q end.
    apply Rmult_integral in Z. destruct Z as [Z|Z]; [exfalso; assert (0 < A * t) by nra; assert (0 < A * t * (E / (1 - v * v))) by nra; lra|]. specialize (Q Z). clear Z. destruct Q as (Q0 & Q1 & Q2).
    rewrite rows_scale in Q0, Q1, Q2. assert (i <> 0) by (intros Z; rewrite Z in Hi; lra).
    apply Rmult_integral in Q0, Q1, Q2. destruct Q0 as [|Q0]; [contradiction|]. destruct Q1 as [|Q1]; [contradiction|]. destruct Q2 as [|Q2]; [contradiction|].
    destruct (cst_rows a b c Za Zb Zc u) as (R0 & R1 & R2). rewrite R0 in Q0. rewrite R1 in Q1. rewrite R2 in Q2. clear R0 R1 R2.
    assert (D0 : D_of a b c <> 0) by (rewrite HD; intros Z; apply Rmult_integral in Z; destruct Z as [Z|Z]; [rewrite Z in S2; lra|lra]). unfold D_of in D0, HD.
    set (x2 := px b - px a) in *. set (x3 := px c - px a) in *. set (y2 := py b - py a) in *. set (y3 := py c - py a) in *. set (D := x2 * y3 - x3 * y2) in *.
    set (U := u 2%nat - u 0%nat) in *. set (W := u 4%nat - u 0%nat) in *. set (U' := u 3%nat - u 1%nat) in *. set (W' := u 5%nat - u 1%nat) in *.
    set (w := (y3 * U' - y2 * W') / D). assert (Hw : w * D = y3 * U' - y2 * W') by (unfold w; field; exact D0).
    assert (EU : U = - w * y2) by (apply (Rmult_eq_reg_r D); [|exact D0]; transitivity (x2 * (y3 * U - y2 * W) + y2 * (- x3 * U + x2 * W)); [unfold D; ring|]; rewrite Q0; replace (- x3 * U + x2 * W) with (- (w * D)) by lra; ring).
    assert (EW : W = - w * y3) by (apply (Rmult_eq_reg_r D); [|exact D0]; transitivity (x3 * (y3 * U - y2 * W) + y3 * (- x3 * U + x2 * W)); [unfold D; ring|]; rewrite Q0; replace (- x3 * U + x2 * W) with (- (w * D)) by lra; ring).
    assert (EU' : U' = w * x2) by (apply (Rmult_eq_reg_r D); [|exact D0]; transitivity (x2 * (y3 * U' - y2 * W') + y2 * (- x3 * U' + x2 * W')); [unfold D; ring|]; rewrite Q1, <- Hw; ring).
    assert (EW' : W' = w * x3) by (apply (Rmult_eq_reg_r D); [|exact D0]; transitivity (x3 * (y3 * U' - y2 * W') + y3 * (- x3 * U' + x2 * W')); [unfold D; ring|]; rewrite Q1, <- Hw; ring).
    exists (u 0%nat + w * py a), (u 1%nat - w * px a), w. cbv zeta. unfold U, W, U', W', x2, x3, y2, y3 in *. repeat split; f_equal; lra.
Qed.
Print Assumptions C47_triangle.
(** A triangle, a rigid motion (translation (3, 4) and rotation) and a stretch with shear. *)
Example C47_triangle_case : 0 < tri_area (P 0 0 0) (P 4 0 0) (P 1 3 0) /\ rigid2 (Affine 3 4 0 (P 0 (-2) 0) (P 2 0 0) (P 0 0 0)) /\
  plane_energy 1 (1 / 2) (Affine 0 0 0 (P 1 1 0) (P 0 0 0) (P 0 0 0)) (Affine 0 0 0 (P 1 1 0) (P 0 0 0) (P 0 0 0)) = 5 / 3.
Proof.
  split; [|split].
  - unfold tri_area. rewrite (pnorm_unique _ 12); [lra|lra|]. unfold tri_normal, pdot, pcross, psub. cbn. ring.
  - unfold rigid2, strain2. cbn. f_equal. ring.
  - unfold plane_energy, strain2. cbn. field.
Qed.

(** ** Constant-strain tetrahedron *)
Lemma tet_strain_affine a b c d f k : tet_volume a b c d <> 0 -> (k < 6)%nat -> rsum 12 (fun j => tet_strain a b c d k j * nodal 3 f [a; b; c; d] j) = nth k (strain3 f) 0.
Proof.
  intros HV Hk. set (V := tet_volume a b c d) in *. assert (T : forall m g, (m < 3)%nat -> tet_B a b c d m 0%nat * pdot g (psub a d) + tet_B a b c d m 1%nat * pdot g (psub b d) + tet_B a b c d m 2%nat * pdot g (psub c d) = 6 * V * coordinate m g).
  { intros m g Hm. destruct (tet_gradient a b c d g 0) as (_ & G0 & G1 & G2). fold V in G0, G1, G2. destruct m as [|[|[|]]]; [| | |lia]; cbn [coordinate]; [rewrite <- G0|rewrite <- G1|rewrite <- G2]; unfold tet_B, of_rows, linear, pdot, psub; cbn [rsum nth px py pz]; ring. }
  assert (G : forall m g t, (m < 3)%nat -> let A j := mscale (/ (6 * V)) (tet_B a b c d) m j in A 0%nat * (t + pdot g a) + A 1%nat * (t + pdot g b) + A 2%nat * (t + pdot g c) - (A 0%nat + A 1%nat + A 2%nat) * (t + pdot g d) = coordinate m g).
  { intros m g t Hm A. unfold A, mscale. apply (Rmult_eq_reg_l (6 * V)); [|lra]. rewrite <- (T m g Hm). unfold pdot, psub. cbn. field. exact HV. }
  cbv zeta in G. pose proof (G 0%nat) as G0. pose proof (G 1%nat) as G1. pose proof (G 2%nat) as G2. clear G T. cbn [coordinate] in G0, G1, G2.
  unfold tet_strain. fold V. set (A := mscale (/ (6 * V)) (tet_B a b c d)) in *. clearbody A. cbv zeta. unfold nodal, of_rows.
  destruct k as [|[|[|[|[|[|]]]]]]; [| | | | | |lia]; cbn [rsum nth strain3 Nat.modulo Nat.div Nat.divmod Nat.sub fst snd coordinate move px py pz].
  - rewrite <- (G0 (g_x f) (t_x f)) by lia. ring.
  - rewrite <- (G1 (g_y f) (t_y f)) by lia. ring.
  - rewrite <- (G2 (g_z f) (t_z f)) by lia. ring.
  - rewrite <- (G2 (g_y f) (t_y f)), <- (G1 (g_z f) (t_z f)) by lia. ring.
  - rewrite <- (G2 (g_x f) (t_x f)), <- (G0 (g_z f) (t_z f)) by lia. ring.
  - rewrite <- (G1 (g_x f) (t_x f)), <- (G0 (g_y f) (t_y f)) by lia. ring.
Qed.
(** Rigid motions give no force, whatever the orientation and the material constants. *)
Theorem C47_tetrahedron_rigid : forall E v a b c d f i, tet_volume a b c d <> 0 -> rigid3 f ->
  force 12 (tet_stiffness E v a b c d) (nodal 3 f [a; b; c; d]) i = 0.
Proof.
  intros E v a b c d f i HV Rf. unfold tet_stiffness. rewrite force_scale, force_BtDB. rewrite rsum_zero; [ring|]. intros q Hq. rewrite rsum_zero; [ring|]. intros m Hm.
  rewrite tet_strain_affine by assumption. unfold rigid3 in Rf. rewrite List.Forall_forall in Rf. rewrite (Rf (nth m (strain3 f) 0)); [ring|]. apply nth_In. exact Hm.
Qed.
Print Assumptions C47_tetrahedron_rigid.
(** The energy density of the material matrix as coded, for strains e. *)
Definition coded_energy (E v : R) (e : list R) : R :=
  let x k := nth k e 0 in
  E / ((1 + v) * (1 - 2 * v)) * ((1 - v) * (x 0%nat * x 0%nat + x 1%nat * x 1%nat + x 2%nat * x 2%nat) + v * (2 * x 0%nat * x 1%nat + x 0%nat * x 2%nat + 2 * x 1%nat * x 2%nat)
     + (1 / 2 - v) * (x 3%nat * x 3%nat + x 4%nat * x 4%nat + x 5%nat * x 5%nat)).
Lemma tet_form E v a b c d u : -1 < v < 1 / 2 -> form 12 (tet_stiffness E v a b c d) u u = tet_volume a b c d * coded_energy E v (map (fun k => rsum 12 (fun j => tet_strain a b c d k j * u j)) (seq 0 6)).
Proof.
  intros Hv. unfold tet_stiffness. rewrite form_scale, form_BtDB. f_equal. cbn [map seq]. pose (B := fun k => rsum 12 (fun j => tet_strain a b c d k j * u j)).
  change (rsum 6 (fun k => B k * rsum 6 (fun m => tet_material E v k m * B m)) = coded_energy E v [B 0%nat; B 1%nat; B 2%nat; B 3%nat; B 4%nat; B 5%nat]).
  clearbody B. unfold coded_energy, tet_material, mscale, of_rows. cbv zeta. cbn [rsum nth]. field. split; lra.
Qed.
(** Positively oriented, 0 <= E, -1 < v and 3v^2 + 3v <= 2 (v up to 0.457): the energy is never negative. *)
Theorem C47_tetrahedron_energy : forall E v a b c d u, 0 < tet_volume a b c d -> 0 <= E -> -1 < v < 1 / 2 -> 3 * v * v + 3 * v <= 2 ->
  0 <= form 12 (tet_stiffness E v a b c d) u u.
Proof.
  intros E v a b c d u HV HE Hv Hq. rewrite tet_form by exact Hv. apply Rmult_le_pos; [lra|]. unfold coded_energy. cbv zeta. generalize (map (fun k => rsum 12 (fun j => tet_strain a b c d k j * u j)) (seq 0 6)). intros e.
  assert (0 <= E / ((1 + v) * (1 - 2 * v))) by (apply Rmult_le_pos; [exact HE|left; apply Rinv_0_lt_compat; apply Rmult_lt_0_compat; lra]).
  apply Rmult_le_pos; [assumption|]. set (x := nth 0 e 0). set (y := nth 1 e 0). set (z := nth 2 e 0). set (r := nth 3 e 0). set (s := nth 4 e 0). set (q := nth 5 e 0). clearbody x y z r s q.
  assert (S1 : 0 <= (1 / 2 - v) * (r * r + s * s + q * q)) by (apply Rmult_le_pos; [lra|nra]).
  assert (S2 : 0 <= (1 - v) * (x * x + y * y + z * z) + v * (2 * x * y + x * z + 2 * y * z)); [|lra].
  set (m := x + z). set (n := x - z).
  assert (I : (1 - v) * ((1 - v) * (x * x + y * y + z * z) + v * (2 * x * y + x * z + 2 * y * z)) =
     (1 - v) * ((1 - v) / 2 - v / 4) * (n * n) + ((1 - v) * y + v * m) * ((1 - v) * y + v * m) + (((1 - v) * ((1 - v) / 2 + v / 4)) - v * v) * (m * m)) by (unfold m, n; field).
  assert (0 <= n * n) by apply Rle_0_sqr. assert (0 <= m * m) by apply Rle_0_sqr. assert (0 <= ((1 - v) * y + v * m) * ((1 - v) * y + v * m)) by apply Rle_0_sqr.
  assert (0 <= (1 - v) * ((1 - v) / 2 - v / 4) * (n * n)) by (apply Rmult_le_pos; [apply Rmult_le_pos; lra|assumption]).
  assert (0 <= (((1 - v) * ((1 - v) / 2 + v / 4)) - v * v) * (m * m)) by (apply Rmult_le_pos; [nra|assumption]).
  apply (Rmult_le_reg_l (1 - v)); [lra|]. rewrite I. lra.
Qed.
Print Assumptions C47_tetrahedron_energy.
Definition unit_tet (k : nat) : pt := match k with 0%nat => P 1 0 0 | 1%nat => P 0 1 0 | 2%nat => P 0 0 1 | _ => P 0 0 0 end.
Lemma unit_volume : tet_volume (unit_tet 0) (unit_tet 1) (unit_tet 2) (unit_tet 3) = 1 / 6.
Proof. unfold tet_volume, unit_tet, pdot, pcross, psub. cbn. field. Qed.
(** Beyond it (every v with 3v^2 + 3v > 2 below 1/2, such as 0.49) a stretch of the unit tetrahedron has negative energy. *)
Theorem C47_tetrahedron_negative_energy_refuted : forall E v, 0 < E -> 0 < v < 1 / 2 -> 2 < 3 * v * v + 3 * v ->
  exists u, form 12 (tet_stiffness E v (unit_tet 0) (unit_tet 1) (unit_tet 2) (unit_tet 3)) u u < 0.
Proof.
  intros E v HE Hv Hq. exists (nodal 3 (Affine 0 0 0 (P 1 0 0) (P 0 (- (2 * v / (1 - v))) 0) (P 0 0 1)) [unit_tet 0; unit_tet 1; unit_tet 2; unit_tet 3]).
  rewrite tet_form by lra. rewrite unit_volume.
  rewrite (map_ext_in _ (fun k => nth k (strain3 (Affine 0 0 0 (P 1 0 0) (P 0 (- (2 * v / (1 - v))) 0) (P 0 0 1))) 0)).
  2:{ intros k Hk. apply in_seq in Hk. apply tet_strain_affine; [rewrite unit_volume; lra|lia]. }
  unfold coded_energy, strain3. cbv zeta. cbn [map seq nth px py pz g_x g_y g_z].
  assert (0 < E / ((1 + v) * (1 - 2 * v))) by (apply Rdiv_lt_0_compat; [exact HE|apply Rmult_lt_0_compat; lra]). set (k := E / ((1 + v) * (1 - 2 * v))) in *. clearbody k.
  assert (X : (1 - v) * (1 * 1 + - (2 * v / (1 - v)) * - (2 * v / (1 - v)) + 1 * 1) + v * (2 * 1 * - (2 * v / (1 - v)) + 1 * 1 + 2 * - (2 * v / (1 - v)) * 1) + (1 / 2 - v) * ((0 + 0) * (0 + 0) + (0 + 0) * (0 + 0) + (0 + 0) * (0 + 0)) = (2 - 3 * v - 3 * v * v) / (1 - v)) by (field; lra).
  rewrite X. assert (0 < / (1 - v)) by (apply Rinv_0_lt_compat; lra). assert ((2 - 3 * v - 3 * v * v) / (1 - v) < 0) by (unfold Rdiv; nra). nra.
Qed.
Print Assumptions C47_tetrahedron_negative_energy_refuted.
(** The matrix is not symmetric unless v = 0: the force in x on the first vertex when the third moves in z is 0, the other way round it is not. *)
Theorem C47_tetrahedron_symmetry_refuted : forall E v, 0 < E -> 0 < v < 1 / 2 ->
  let K := tet_stiffness E v (unit_tet 0) (unit_tet 1) (unit_tet 2) (unit_tet 3) in K 0%nat 8%nat = 0 /\ 0 < K 8%nat 0%nat.
Proof.
  intros E v HE Hv K. assert (0 < E / ((1 + v) * (1 - 2 * v))) by (apply Rdiv_lt_0_compat; [exact HE|apply Rmult_lt_0_compat; lra]).
  unfold K, tet_stiffness, tet_strain. rewrite unit_volume. unfold mscale at 1 2, BtDB, tet_material. set (k := E / ((1 + v) * (1 - 2 * v))) in *. clearbody k. unfold tet_B, mscale, of_rows, unit_tet. cbn [rsum nth px py pz]. split; [field|]. field_simplify. nra.
Qed.
Print Assumptions C47_tetrahedron_symmetry_refuted.
(** With two vertices exchanged the stiffness is negative: stretching releases energy, even for v = 0. *)
Theorem C47_inverted_tetrahedron_refuted : forall E, 0 < E ->
  exists a b c d u, tet_volume a b c d = - (1 / 6) /\ form 12 (tet_stiffness E 0 a b c d) u u < 0.
Proof.
  intros E HE. assert (V : tet_volume (unit_tet 1) (unit_tet 0) (unit_tet 2) (unit_tet 3) = - (1 / 6)) by (unfold tet_volume, unit_tet, pdot, pcross, psub; cbn; field).
  exists (unit_tet 1), (unit_tet 0), (unit_tet 2), (unit_tet 3), (nodal 3 (Affine 0 0 0 (P 1 0 0) (P 0 0 0) (P 0 0 0)) [unit_tet 1; unit_tet 0; unit_tet 2; unit_tet 3]). split; [exact V|].
  rewrite tet_form by lra. rewrite V. rewrite (map_ext_in _ (fun k => nth k (strain3 (Affine 0 0 0 (P 1 0 0) (P 0 0 0) (P 0 0 0))) 0)).
  2:{ intros k Hk. apply in_seq in Hk. apply tet_strain_affine; [rewrite V; lra|lia]. }
  unfold coded_energy, strain3. cbv zeta. cbn [map seq nth px py pz g_x g_y g_z]. field_simplify. lra.
Qed.
Print Assumptions C47_inverted_tetrahedron_refuted.
Example C47_tetrahedron_case : rigid3 (Affine 1 2 3 (P 0 (-4) 5) (P 4 0 (-6)) (P (-5) 6 0)) /\ 0 < tet_volume (P 2 0 0) (P 0 3 0) (P 1 1 4) (P 0 0 0).
Proof.
  split; [unfold rigid3, strain3; cbn; repeat (apply List.Forall_cons; [lra|]); apply List.Forall_nil|]. unfold tet_volume, pdot, pcross, psub. cbn. lra.
Qed.

(** Lemmas about finite elements for flow. *)
From Coq Require Import Reals ZArith QArith List Lia Lra Bool.
From Verif Require Import Prelude ZMap Vec Mesh_Model Mesh_Spec Mesh_Proofs Box_Proofs Int_Model Fem_Model Fem_Spec Fem_Proofs Fem_Props Asm_Model Asm_Props Stream_Model.
Import ListNotations.
Open Scope R_scope.

(** ** Vocabulary *)
(** Triangle in the plane z = 0 with its corners counter-clockwise. *)
Definition upright (p q r : pt) : Prop :=
  pz p = 0 /\ pz q = 0 /\ pz r = 0 /\ 0 < (px q - px p) * (py r - py p) - (px r - px p) * (py q - py p).
(** Integrals over a triangle, and a tetrahedron, of the product of two linear fields given at the corners (C46_triangle_mass, C46_tetrahedron_mass). *)
Definition tri_integral (p q r : pt) (f g : nat -> R) : R := tri_area p q r / 12 * (rsum 3 (fun i => f i * g i) + rsum 3 f * rsum 3 g).
Definition tet_integral (p q r s : pt) (f g : nat -> R) : R := tet_volume p q r s / 20 * (rsum 4 (fun i => f i * g i) + rsum 4 f * rsum 4 g).
Definition mean (n : nat) (f : nat -> R) : R := rsum n f / INR n.
Definition partial (k : component) (g : pt) : R := match k with CP_X => px g | CP_Y => py g | CP_Z => pz g end.

(** ** Elements *)
Lemma upright_area p q r : upright p q r -> tri_area p q r = ((px q - px p) * (py r - py p) - (px r - px p) * (py q - py p)) / 2 /\ 0 < tri_area p q r.
Proof.
  intros (A & B & C & D). assert (E : tri_area p q r = ((px q - px p) * (py r - py p) - (px r - px p) * (py q - py p)) / 2).
  { unfold tri_area. rewrite (pnorm_unique _ ((px q - px p) * (py r - py p) - (px r - px p) * (py q - py p))); [field|lra|]. unfold tri_normal, pdot, pcross, psub. cbn [px py pz]. rewrite A, B, C. ring. }
  split; [exact E|lra].
Qed.
Lemma upright_B p q r : upright p q r -> tri_B p q r = of_rows [[- (py r - py q); - (py p - py r); - (py q - py p)]; [px r - px q; px p - px r; px q - px p]].
Proof. intros (A & B & C & _). unfold tri_B, local. destruct (Req_EM_T (pz p) 0); [|lra]. destruct (Req_EM_T (pz q) 0); [|lra]. destruct (Req_EM_T (pz r) 0); [|lra]. reflexivity. Qed.
(** The rows of B applied to a linear field: twice the area times the gradient. *)
Lemma upright_rows p q r g c k : upright p q r -> (k < 2)%nat ->
  rsum 3 (fun j => tri_B p q r k j * linear g c [p; q; r] j) = 2 * tri_area p q r * (match k with 0%nat => px g | _ => py g end).
Proof.
  intros U Hk. destruct (upright_area p q r U) as [E _]. rewrite E, (upright_B p q r U). destruct U as (A & B & C & _).
  destruct k as [|[|k]]; [| |lia]; unfold of_rows, linear, pdot; cbn [rsum nth]; rewrite A, B, C; field.
Qed.
Lemma tet_rows p q r s g c k : (k < 3)%nat ->
  rsum 4 (fun j => tet_B p q r s k j * linear g c [p; q; r; s] j) = 6 * tet_volume p q r s * coordinate k g.
Proof.
  intros Hk. unfold tet_volume, tet_B, of_rows, linear, pdot, pcross, psub, coordinate.
  destruct k as [|[|[|k]]]; [| | |lia]; cbn [rsum nth px py pz]; field.
Qed.
Lemma form_product n b c t f : form n (rows_product b c) t f = rsum n (fun i => b i * t i) * rsum n (fun j => c j * f j).
Proof.
  unfold form, rows_product. rewrite (rsum_ext n (fun i => t i * rsum n (fun j => b i * c j * f j)) (fun i => (b i * t i) * rsum n (fun j => c j * f j))); [apply rsum_scale_r|].
  intros i _. rewrite (rsum_ext n (fun j => b i * c j * f j) (fun j => b i * (c j * f j))) by (intros; ring). rewrite rsum_scale. ring.
Qed.
Lemma form_plus n A B t f : form n (fun i j => A i j + B i j) t f = form n A t f + form n B t f.
Proof. unfold form. rewrite <- rsum_add. apply rsum_ext. intros i _. rewrite <- Rmult_plus_distr_l, <- rsum_add. f_equal. apply rsum_ext. intros. ring. Qed.
Lemma form_minus n A c B t f : form n (fun i j => A i j - c * B i j) t f = form n A t f - c * form n B t f.
Proof.
  rewrite (form_ext n _ (fun i j => A i j + mscale (- c) B i j)) by (intros; unfold mscale; ring). rewrite form_plus, form_scale. ring.
Qed.
(** All rows alike. *)
Lemma form_same_rows n b t f : form n (fun _ j => b j) t f = rsum n t * rsum n (fun j => b j * f j).
Proof. unfold form. apply rsum_scale_r. Qed.
Lemma tri_convective_form dt u v p q r t f : let A := tri_area p q r in let B := tri_B p q r in
  0 < A ->
  form 3 (flow_tri_convective dt u v p q r) t f =
    1 / 24 * (rsum 3 (fun i => t i * (rsum 3 u + u i)) * rsum 3 (fun j => B 0%nat j * f j) + rsum 3 (fun i => t i * (rsum 3 v + v i)) * rsum 3 (fun j => B 1%nat j * f j))
    - dt * (/ (4 * A) * (mean 3 u * rsum 3 (fun j => B 0%nat j * t j) + mean 3 v * rsum 3 (fun j => B 1%nat j * t j)) * (mean 3 u * rsum 3 (fun j => B 0%nat j * f j) + mean 3 v * rsum 3 (fun j => B 1%nat j * f j))).
Proof.
  intros A B HA. unfold flow_tri_convective. rewrite form_minus. f_equal.
  - rewrite form_scale. f_equal. rewrite form_plus. cbn [rsum]. unfold form. cbn [rsum]. fold B. ring.
  - f_equal. rewrite !form_plus, !form_scale, !form_product. unfold mean. replace (INR 3) with 3 by (cbn; ring). cbn [rsum]. fold A B. field. lra.
Qed.
Lemma tet_convective_form dt u v w p q r s t f : let V := tet_volume p q r s in let B := tet_B p q r s in
  0 < V ->
  form 4 (flow_tet_convective dt u v w p q r s) t f =
    1 / 120 * (rsum 4 (fun i => t i * (rsum 4 u + u i)) * rsum 4 (fun j => B 0%nat j * f j) + rsum 4 (fun i => t i * (rsum 4 v + v i)) * rsum 4 (fun j => B 1%nat j * f j) + rsum 4 (fun i => t i * (rsum 4 w + w i)) * rsum 4 (fun j => B 2%nat j * f j))
    + 1 / 120 * (t 3%nat * (u 2%nat - u 3%nat) * (B 0%nat 2%nat * f 2%nat))
    - dt * (/ (36 * V) * (mean 4 u * rsum 4 (fun j => B 0%nat j * t j) + mean 4 v * rsum 4 (fun j => B 1%nat j * t j) + mean 4 w * rsum 4 (fun j => B 2%nat j * t j))
         * (mean 4 u * rsum 4 (fun j => B 0%nat j * f j) + mean 4 v * rsum 4 (fun j => B 1%nat j * f j) + mean 4 w * rsum 4 (fun j => B 2%nat j * f j))).
Proof.
  intros V B HV. unfold flow_tet_convective. rewrite form_minus. f_equal.
  - rewrite form_scale, <- Rmult_plus_distr_l. f_equal. unfold form. cbn [rsum]. fold B. ring.
  - f_equal. rewrite !form_plus, !form_scale, !form_product. unfold mean. replace (INR 4) with 4 by (cbn; ring). cbn [rsum]. fold V B. field. lra.
Qed.
Lemma tri_convective_constants dt u v p q r : 0 < tri_area p q r -> kills_constants 3 (flow_tri_convective dt u v p q r).
Proof.
  intros HA c i Hi. rewrite <- (form_delta_l 3 _ i (fun _ => c) Hi), tri_convective_form by exact HA.
  assert (Z : forall k, (k < 2)%nat -> rsum 3 (fun j => tri_B p q r k j * c) = 0) by (intros k Hk; rewrite rsum_scale_r, tri_B_constants by exact Hk; ring). rewrite !Z by lia. ring.
Qed.
Lemma tet_convective_constants dt u v w p q r s : 0 < tet_volume p q r s -> u 2%nat = u 3%nat -> kills_constants 4 (flow_tet_convective dt u v w p q r s).
Proof.
  intros HV Eu c i Hi. rewrite <- (form_delta_l 4 _ i (fun _ => c) Hi), tet_convective_form by exact HV. rewrite Eu.
  assert (Z : forall k, (k < 3)%nat -> rsum 4 (fun j => tet_B p q r s k j * c) = 0) by (intros k Hk; rewrite rsum_scale_r, tet_B_constants by exact Hk; ring). rewrite !Z by lia. ring.
Qed.

(** ** Assembly as a sum over elements *)
Definition share (branch : etype -> nat -> bool) (shape : element -> list pt -> list nat -> outcome rmat) (nodes : table pt) (t f : nat -> R) (e : element) : R :=
  if branch (e_type e) (length (e_nodes e)) then
    let pos := map (pos_of nodes) (e_nodes e) in
    match shape e (vertices nodes e) pos with Ok K => form (length (e_nodes e)) K (at_positions pos t) (at_positions pos f) | _ => 0 end
  else 0.
(** Node references are valid and ids give positions. *)
Record flow_mesh (nodes : table pt) (elems : table element) : Prop := {
  wm_nodes : wf_table nodes; wm_index : indexed nodes; wm_elems : wf_table elems;
  wm_refs : forall id e, t_get elems id = Ok e -> List.Forall (fun n => In n (t_ids nodes)) (e_nodes e) }.
Section Sum.
Context (nodes : table pt) (elems : table element) (M : flow_mesh nodes elems).
Context (branch : etype -> nat -> bool) (shape : element -> list pt -> list nat -> outcome rmat).
Context (total_shape : forall id e, t_get elems id = Ok e -> branch (e_type e) (length (e_nodes e)) = true -> exists K, shape e (vertices nodes e) (map (pos_of nodes) (e_nodes e)) = Ok K).
Let n := length (t_ids nodes).
Let step (A : rmat) (e : element) : outcome rmat :=
  if branch (e_type e) (length (e_nodes e)) then
    vs <- mapM (t_get nodes) (e_nodes e) ;; pos <- positions nodes (e_nodes e) ;; K <- shape e vs pos ;; Ok (stamp pos K A)
  else Ok A.
Lemma ids_sum : exists A, foldM (fun A id => e <- t_get elems id ;; step A e) (t_ids elems) (fun _ _ => 0) = Ok A /\ forall t f, form n A t f = lsum (share branch shape nodes t f) (elements elems).
Proof.
  destruct M as [W I WE Rf].
  apply (foldM_invariant _ (fun done A => forall t f, form n A t f = lsum (share branch shape nodes t f) (flat_map (fun id => match t_get elems id with Ok e => [e] | _ => [] end) done))).
  - intros t f. apply form_zero.
  - intros done id rest A E IH. destruct (wf_get elems id WE) as [e He]; [rewrite E; apply in_or_app; right; now left|]. rewrite He. cbn [bind].
    specialize (Rf id e He). assert (ES : flat_map (fun id => match t_get elems id with Ok e => [e] | _ => [] end) (done ++ [id]) = flat_map (fun id => match t_get elems id with Ok e => [e] | _ => [] end) done ++ [e]) by (rewrite flat_map_app; cbn; rewrite He; reflexivity). rewrite ES.
    unfold step. destruct (branch (e_type e) (length (e_nodes e))) eqn:HB.
    + rewrite (mapM_get nodes _ W Rf). cbn [bind]. destruct (positions_ok nodes _ I Rf) as [-> PF]. cbn [bind]. fold (vertices nodes e).
      destruct (total_shape id e He HB) as [K EK]. rewrite EK. cbn [bind]. eexists. split; [reflexivity|].
      intros t f. rewrite form_stamp by exact PF. rewrite IH, lsum_app. unfold lsum at 3. cbn [fold_right]. unfold share at 3. rewrite HB. cbv zeta. rewrite EK, map_length. ring.
    + exists A. split; [reflexivity|]. intros t f. rewrite IH, lsum_app. unfold lsum at 3. cbn [fold_right]. unfold share at 3. rewrite HB. ring.
Qed.
Lemma foldM_same {S A} (f g : S -> A -> outcome S) l s : (forall s a, f s a = g s a) -> foldM f l s = foldM g l s.
Proof. intros E. revert s. induction l as [|a l IH]; intros s; cbn; [reflexivity|]. rewrite E. destruct (g s a); cbn; auto. Qed.
Lemma by_id_sum : exists A, flow_assemble nodes (length (t_ids elems)) (by_id elems) branch shape = Ok A /\ forall t f, form n A t f = lsum (share branch shape nodes t f) (elements elems).
Proof.
  destruct ids_sum as (A & E & F). exists A. split; [|exact F]. unfold flow_assemble. rewrite <- E.
  rewrite <- (foldM_positions elems (fun A (_ : Z) e => step A e)) by apply M. apply foldM_same. intros B el. unfold by_id, step. destruct (t_id elems el); reflexivity.
Qed.
Lemma loop_sum : t_ids elems = zrange (length (t_ids elems)) ->
  exists A, flow_assemble nodes (length (t_ids elems)) (t_get elems) branch shape = Ok A /\ forall t f, form n A t f = lsum (share branch shape nodes t f) (elements elems).
Proof. intros P. destruct ids_sum as (A & E & F). exists A. split; [|exact F]. unfold flow_assemble. rewrite <- P. exact E. Qed.
End Sum.

Lemma either_shape e nodes : is_either (e_type e) (length (e_nodes e)) = true ->
  (e_type e = ET_TRIANGLE /\ exists p q r, vertices nodes e = [p; q; r]) \/ (e_type e = ET_TETRAHEDRON /\ exists p q r s, vertices nodes e = [p; q; r; s]).
Proof.
  intros H. assert (L : length (vertices nodes e) = length (e_nodes e)) by apply map_length. rewrite <- L in H. unfold is_either, is_triangle, is_tetrahedron in H.
  destruct (e_type e); try discriminate; destruct (vertices nodes e) as [|p [|q [|r [|s [|x l]]]]]; try discriminate; [left|right]; split; eauto 6.
Qed.
Lemma triangle_shape e nodes : is_triangle (e_type e) (length (e_nodes e)) = true -> e_type e = ET_TRIANGLE /\ exists p q r, vertices nodes e = [p; q; r].
Proof. intros H. destruct (either_shape e nodes) as [A|(A & p & q & r & s & E)]; [unfold is_either; now rewrite H|exact A|]. unfold is_triangle in H. rewrite A in H. discriminate. Qed.
Lemma tetrahedron_shape e nodes : is_tetrahedron (e_type e) (length (e_nodes e)) = true -> e_type e = ET_TETRAHEDRON /\ exists p q r s, vertices nodes e = [p; q; r; s].
Proof. intros H. destruct (either_shape e nodes) as [(A & p & q & r & E)|A]; [unfold is_either; rewrite H; apply orb_true_r| |exact A]. unfold is_tetrahedron in H. rewrite A in H. discriminate. Qed.

(** Shares of constant fields vanish. *)
Lemma share_constants branch shape nodes elems A c : 
  (forall t f, form (length (t_ids nodes)) A t f = lsum (share branch shape nodes t f) (elements elems)) ->
  (forall id e K, t_get elems id = Ok e -> branch (e_type e) (length (e_nodes e)) = true -> shape e (vertices nodes e) (map (pos_of nodes) (e_nodes e)) = Ok K -> kills_constants (length (e_nodes e)) K) ->
  forall i, (i < length (t_ids nodes))%nat -> mat_vec (length (t_ids nodes)) A (fun _ => c) i = 0.
Proof.
  intros F Kc i Hi. unfold mat_vec. rewrite <- (form_delta_l _ A i (fun _ => c)), F by exact Hi. rewrite (lsum_ext _ (fun e => 0 * 0)); [rewrite lsum_scale; ring|]. intros e He.
  destruct (elements_in elems e He) as [id Hid]. unfold share. destruct (branch (e_type e) (length (e_nodes e))) eqn:HB; [|ring]. cbv zeta. destruct (shape e (vertices nodes e) (map (pos_of nodes) (e_nodes e))) as [K| |] eqn:EK; [|ring|ring].
  rewrite at_const, form_const; [ring|]. eapply Kc; eauto.
Qed.

(** ** Elements of a mesh *)
Definition sound_element (nodes : table pt) (e : element) : Prop :=
  match e_type e, vertices nodes e with
  | ET_TRIANGLE, [p; q; r] => 0 < tri_area p q r
  | ET_TETRAHEDRON, [p; q; r; s] => 0 < tet_volume p q r s
  | _, _ => True
  end.
Definition size (nodes : table pt) (e : element) : R :=
  match e_type e, vertices nodes e with
  | ET_TRIANGLE, [p; q; r] => tri_area p q r
  | ET_TETRAHEDRON, [p; q; r; s] => tet_volume p q r s
  | _, _ => 0
  end.
Lemma nodes_length nodes e : length (e_nodes e) = length (vertices nodes e). Proof. unfold vertices. now rewrite map_length. Qed.
Lemma gradient_constants k nodes e K : is_either (e_type e) (length (e_nodes e)) = true ->
  match vertices nodes e with [p; q; r] => flow_tri_gradient k p q r | [p; q; r; s] => Ok (flow_tet_gradient k p q r s) | _ => UB end = Ok K -> kills_constants (length (e_nodes e)) K.
Proof.
  intros H EK c i Hi. rewrite (nodes_length nodes e) in *. destruct (either_shape e nodes) as [(_ & p & q & r & E)|(_ & p & q & r & s & E)]; [now rewrite (nodes_length nodes e)| |]; rewrite E in EK |- *; cbn [length].
  - assert (Z : forall k, (k < 2)%nat -> rsum 3 (fun j => tri_B p q r k j * c) = 0) by (intros m Hm; rewrite rsum_scale_r, tri_B_constants by exact Hm; ring).
    destruct k; cbn [flow_tri_gradient] in EK; try discriminate; injection EK as <-; unfold mscale.
    + rewrite (rsum_ext 3 _ (fun j => 1 / 6 * (tri_B p q r 0%nat j * c))) by (intros; ring). rewrite rsum_scale, Z by lia. ring.
    + rewrite (rsum_ext 3 _ (fun j => 1 / 6 * (tri_B p q r 1%nat j * c))) by (intros; ring). rewrite rsum_scale, Z by lia. ring.
  - assert (Z : forall k, (k < 3)%nat -> rsum 4 (fun j => tet_B p q r s k j * c) = 0) by (intros m Hm; rewrite rsum_scale_r, tet_B_constants by exact Hm; ring).
    injection EK as <-. unfold flow_tet_gradient, mscale. destruct k.
    + rewrite (rsum_ext 4 _ (fun j => 1 / 24 * (tet_B p q r s 0%nat j * c))) by (intros; ring). rewrite rsum_scale, Z by lia. ring.
    + rewrite (rsum_ext 4 _ (fun j => 1 / 24 * (tet_B p q r s 1%nat j * c))) by (intros; ring). rewrite rsum_scale, Z by lia. ring.
    + rewrite (rsum_ext 4 _ (fun j => 1 / 24 * (tet_B p q r s 2%nat j * c))) by (intros; ring). rewrite rsum_scale, Z by lia. ring.
Qed.
Section Mesh.
Context (nodes : table pt) (elems : table element) (M : flow_mesh nodes elems) (S : forall id e, t_get elems id = Ok e -> sound_element nodes e).
Let n := length (t_ids nodes).
(** No triangles where a derivative along z is wanted. *)
Definition fits (k : component) : Prop := k = CP_Z -> forall id e, t_get elems id = Ok e -> is_triangle (e_type e) (length (e_nodes e)) = false.
Lemma gradient_sum k : fits k -> exists G, flow_gradient nodes elems k = Ok G /\
  forall t f, form n G t f = lsum (share is_either (fun _ vs _ => match vs with [p; q; r] => flow_tri_gradient k p q r | [p; q; r; s] => Ok (flow_tet_gradient k p q r s) | _ => UB end) nodes t f) (elements elems).
Proof.
  intros Fk. apply by_id_sum; [exact M|]. intros id e He HB. destruct (either_shape e nodes HB) as [(T & p & q & r & ->)|(_ & p & q & r & s & ->)]; [|eauto].
  destruct k; cbn; eauto. specialize (Fk eq_refl id e He). unfold is_triangle in Fk. rewrite T in Fk. unfold is_either, is_triangle, is_tetrahedron in HB. rewrite T in HB. destruct (length (e_nodes e)) as [|[|[|[|m]]]]; discriminate.
Qed.
Lemma laplacian_flow : exists L, flow_laplacian nodes elems = Ok L /\ (forall c i, (i < n)%nat -> mat_vec n L (fun _ => c) i = 0).
Proof.
  destruct (by_id_sum nodes elems M is_either (fun _ vs _ => match vs with [p; q; r] => Ok (tri_laplacian 1 p q r) | [p; q; r; s] => Ok (tet_laplacian p q r s) | _ => UB end)) as (L & E & F).
  { intros id e He HB. destruct (either_shape e nodes HB) as [(T & p & q & r & ->)|(_ & p & q & r & s & ->)]; eauto. }
  exists L. split; [exact E|]. intros c. eapply share_constants; [exact F|]. intros id e K He HB EK. specialize (S id e He). unfold sound_element in S. rewrite (nodes_length nodes e).
  destruct (either_shape e nodes HB) as [(T & p & q & r & Ev)|(T & p & q & r & s & Ev)]; rewrite T, Ev in S; rewrite Ev in EK |- *; injection EK as <-.
  - apply (C46_triangle_laplacian 1 p q r S). lra.
  - apply (C46_tetrahedron_laplacian p q r s S).
Qed.
Lemma gradient_flow k : fits k -> exists G, flow_gradient nodes elems k = Ok G /\ (forall c i, (i < n)%nat -> mat_vec n G (fun _ => c) i = 0).
Proof.
  intros Fk. destruct (gradient_sum k Fk) as (G & E & F). exists G. split; [exact E|]. intros c. eapply share_constants; [exact F|]. intros id e K He HB EK. exact (gradient_constants k nodes e K HB EK).
Qed.
Lemma ddt_flow u : ids_are_positions nodes elems -> exists A, flow_ddt nodes elems u = Ok (A, mat_vec n A u) /\
  forall t f, form n A t f = lsum (share is_either (fun _ vs _ => match vs with [p; q; r] => Ok (tri_ddt 1 p q r) | [p; q; r; s] => Ok (tet_ddt 1 p q r s) | _ => UB end) nodes t f) (elements elems).
Proof.
  intros [PN PE]. unfold flow_ddt.
  assert (B : forall id e, t_get elems id = Ok e -> forallb (fun i => (0 <=? i)%Z && (i <? t_size nodes)%Z)%bool (e_nodes e) = true).
  { intros id e He. pose proof (wm_refs _ _ M id e He) as Rf. apply forallb_forall. intros z Hz. rewrite List.Forall_forall in Rf. specialize (Rf z Hz). rewrite PN in Rf. apply zrange_in in Rf. unfold t_size, zlen. apply andb_true_iff. rewrite Z.leb_le, Z.ltb_lt. exact Rf. }
  destruct (loop_sum nodes elems M is_either (fun e vs _ => if forallb (fun i => (0 <=? i)%Z && (i <? t_size nodes)%Z)%bool (e_nodes e) then match vs with [p; q; r] => Ok (tri_ddt 1 p q r) | [p; q; r; s] => Ok (tet_ddt 1 p q r s) | _ => UB end else UB)) as (A & E & F); [|exact PE|].
  { intros id e He HB. rewrite (B id e He). destruct (either_shape e nodes HB) as [(T & p & q & r & ->)|(_ & p & q & r & s & ->)]; eauto. }
  exists A. rewrite E. cbn [bind]. split; [reflexivity|]. intros t f. fold n in F. rewrite F. apply lsum_ext. intros e He. destruct (elements_in elems e He) as [id Hid]. unfold share. rewrite (B id e Hid). reflexivity.
Qed.
End Mesh.

(** ** Velocities outside the mesh do not matter *)
Lemma fold_left_same {A B} (f g : A -> B -> A) l : (forall a b, In b l -> f a b = g a b) -> forall a, fold_left f l a = fold_left g l a.
Proof. induction l as [|b l IH]; intros E a; cbn; [reflexivity|]. rewrite E by now left. apply IH. intros; apply E; now right. Qed.
Lemma stamp_same pos K K' A : (forall i j, (i < length pos)%nat -> (j < length pos)%nat -> K i j = K' i j) -> stamp pos K A = stamp pos K' A.
Proof. intros E. unfold stamp. apply fold_left_same. intros B [i j] H. apply in_prod_iff in H. rewrite !in_seq in H. cbn [fst snd]. rewrite E by lia. reflexivity. Qed.
Lemma mapM_length {A B} (f : A -> outcome B) l l' : mapM f l = Ok l' -> length l' = length l.
Proof. revert l'. induction l as [|a l IH]; cbn; intros l' H; [now injection H as <-|]. destruct (f a); cbn in H; try discriminate. destruct (mapM f l) as [t| |]; cbn in H; try discriminate. injection H as <-. cbn. now rewrite (IH t eq_refl). Qed.
Lemma positions_bound nodes ids pos : positions nodes ids = Ok pos -> length pos = length ids /\ (forall i, (i < length pos)%nat -> (nth i pos 0 < length (t_ids nodes))%nat).
Proof.
  unfold positions. destruct (mapM (t_index nodes) ids) as [zs| |] eqn:E; cbn [bind]; try discriminate. destruct (forallb _ zs) eqn:B; [|discriminate]. intros [= <-]. rewrite map_length. split; [now apply mapM_length in E|].
  intros i Hi. rewrite forallb_forall in B. assert (Hin : In (nth i (map Z.to_nat zs) 0%nat) (map Z.to_nat zs)) by (apply nth_In; now rewrite map_length). apply in_map_iff in Hin. destruct Hin as (z & <- & Hz). specialize (B z Hz). apply andb_true_iff in B. rewrite Z.leb_le, Z.ltb_lt in B. unfold t_size, zlen in B. lia.
Qed.
Section Same.
Context (nodes : table pt) (elems : table element) (u v w u' v' w' : nat -> R) (dt : R).
Context (Hu : forall i, (i < length (t_ids nodes))%nat -> u i = u' i) (Hv : forall i, (i < length (t_ids nodes))%nat -> v i = v' i) (Hw : forall i, (i < length (t_ids nodes))%nat -> w i = w' i).
Lemma divergence2_same : flow_divergence2 nodes elems u v dt = flow_divergence2 nodes elems u' v' dt.
Proof.
  unfold flow_divergence2, flow_assemble. apply foldM_same. intros A el. destruct (by_id elems el) as [e| |]; cbn [bind]; try reflexivity. destruct (is_triangle (e_type e) (length (e_nodes e))) eqn:HB; [|reflexivity].
  destruct (mapM (t_get nodes) (e_nodes e)) as [vs| |]; cbn [bind]; try reflexivity. destruct (positions nodes (e_nodes e)) as [pos| |] eqn:EP; cbn [bind]; try reflexivity.
  destruct (positions_bound nodes _ _ EP) as [L B]. assert (L3 : length pos = 3%nat) by (rewrite L; unfold is_triangle in HB; destruct (e_type e); try discriminate; destruct (length (e_nodes e)) as [|[|[|[|m]]]]; try discriminate; reflexivity).
  rewrite L3 in B. assert (Eu : forall i, (i < 3)%nat -> at_nodes pos u i = at_nodes pos u' i) by (intros i Hi; unfold at_nodes; apply Hu, B, Hi). assert (Ev : forall i, (i < 3)%nat -> at_nodes pos v i = at_nodes pos v' i) by (intros i Hi; unfold at_nodes; apply Hv, B, Hi).
  destruct vs as [|p [|q [|r [|? ?]]]]; try reflexivity. cbn [bind]. f_equal. apply stamp_same. rewrite L3. intros i j Hi Hj. unfold flow_tri_convective, mscale, rows_product. rewrite !(Eu 0%nat), !(Eu 1%nat), !(Eu 2%nat), !(Eu i), !(Ev 0%nat), !(Ev 1%nat), !(Ev 2%nat), !(Ev i) by lia. reflexivity.
Qed.
Lemma divergence3_same : flow_divergence3 nodes elems u v w dt = flow_divergence3 nodes elems u' v' w' dt.
Proof.
  unfold flow_divergence3, flow_assemble. apply foldM_same. intros A el. destruct (by_id elems el) as [e| |]; cbn [bind]; try reflexivity. destruct (is_tetrahedron (e_type e) (length (e_nodes e))) eqn:HB; [|reflexivity].
  destruct (mapM (t_get nodes) (e_nodes e)) as [vs| |]; cbn [bind]; try reflexivity. destruct (positions nodes (e_nodes e)) as [pos| |] eqn:EP; cbn [bind]; try reflexivity.
  destruct (positions_bound nodes _ _ EP) as [L B]. assert (L4 : length pos = 4%nat) by (rewrite L; unfold is_tetrahedron in HB; destruct (e_type e); try discriminate; destruct (length (e_nodes e)) as [|[|[|[|[|m]]]]]; try discriminate; reflexivity).
  rewrite L4 in B. assert (Eu : forall i, (i < 4)%nat -> at_nodes pos u i = at_nodes pos u' i) by (intros i Hi; unfold at_nodes; apply Hu, B, Hi). assert (Ev : forall i, (i < 4)%nat -> at_nodes pos v i = at_nodes pos v' i) by (intros i Hi; unfold at_nodes; apply Hv, B, Hi). assert (Ew : forall i, (i < 4)%nat -> at_nodes pos w i = at_nodes pos w' i) by (intros i Hi; unfold at_nodes; apply Hw, B, Hi).
  destruct vs as [|p [|q [|r [|s [|? ?]]]]]; try reflexivity. cbn [bind]. f_equal. apply stamp_same. rewrite L4. intros i j Hi Hj. unfold flow_tet_convective, mscale, rows_product. cbv zeta.
  rewrite (Eu 0%nat), (Eu 1%nat), (Eu 2%nat), (Eu 3%nat), (Ev 0%nat), (Ev 1%nat), (Ev 2%nat), (Ev 3%nat), (Ew 0%nat), (Ew 1%nat), (Ew 2%nat), (Ew 3%nat) by lia. rewrite (Ev i), (Ew i) by lia.
  rewrite (Eu (match i with 3%nat => match j with 2%nat => 2%nat | _ => i end | _ => i end)); [reflexivity|]. destruct i as [|[|[|[|i]]]]; try lia; destruct j as [|[|[|j]]]; lia.
Qed.
End Same.

(** ** The systems of a step *)
(** What elimination and an exact solver return (C41): the fixed values where there are any, and the equation at the other nodes. *)
Definition meets (n : nat) (fx : nat -> option R) (A : rmat) (b x : nat -> R) : Prop :=
  forall i, (i < n)%nat -> match fx i with Some c => x i = c | None => rsum n (fun j => A i j * x j) = b i end.
(** The solver finds the solution of every system that has exactly one. *)
Definition right_solver (n : nat) (fx : nat -> option R) (solve : solver) : Prop := forall A b x,
  meets n fx A b x -> (forall y, meets n fx A b y -> forall i, (i < n)%nat -> y i = x i) -> forall i, (i < n)%nat -> solve fx A b i = x i.
(** Exactly one solution for every right-hand side that has one: only zero solves the homogeneous problem. *)
Definition well_posed (n : nat) (fx : nat -> option R) (A : rmat) : Prop := forall y,
  (forall i, (i < n)%nat -> match fx i with Some _ => y i = 0 | None => rsum n (fun j => A i j * y j) = 0 end) -> forall i, (i < n)%nat -> y i = 0.
Lemma solved n fx solve A b x : right_solver n fx solve -> well_posed n fx A -> meets n fx A b x -> forall i, (i < n)%nat -> solve fx A b i = x i.
Proof.
  intros Rs W Mx. apply Rs; [exact Mx|]. intros y My i Hi. assert (y i - x i = 0); [|lra]. apply (W (fun i => y i - x i)); [|exact Hi]. intros k Hk. specialize (Mx k Hk). specialize (My k Hk). destruct (fx k); [lra|].
  rewrite (rsum_ext n _ (fun j => A k j * y j + -1 * (A k j * x j))) by (intros; ring). rewrite rsum_add, rsum_scale. lra.
Qed.
(** A uniform field solves a system whose rows give [b] on it. *)
Lemma meets_uniform n fx A b c : (forall i k, fx i = Some k -> k = c) -> (forall i, (i < n)%nat -> mat_vec n A (fun _ => c) i = b i) -> meets n fx A b (fun _ => c).
Proof. intros F E i Hi. destruct (fx i) eqn:Ef; [symmetry; eauto|]. apply E, Hi. Qed.
Lemma mat_vec_same n A x y i : (forall j, (j < n)%nat -> x j = y j) -> mat_vec n A x i = mat_vec n A y i.
Proof. intros E. unfold mat_vec. apply rsum_ext. intros j Hj. now rewrite E. Qed.
Lemma mat_vec_scale n c A x i : mat_vec n (mscale c A) x i = c * mat_vec n A x i.
Proof. unfold mat_vec, mscale. rewrite <- rsum_scale. apply rsum_ext. intros; ring. Qed.

(** The storage matrix is positive where every node belongs to an element. *)
Definition covered (nodes : table pt) (elems : table element) : Prop := forall i, (i < length (t_ids nodes))%nat ->
  exists id e, t_get elems id = Ok e /\ In id (t_ids elems) /\ is_either (e_type e) (length (e_nodes e)) = true /\ In i (map (pos_of nodes) (e_nodes e)).
Lemma tri_mass_zero p q r w : 0 < tri_area p q r -> form 3 (tri_ddt 1 p q r) w w = 0 -> forall i, (i < 3)%nat -> w i = 0.
Proof.
  intros HA. unfold tri_ddt. rewrite per_dt_pos by lra. rewrite !form_scale. intros E.
  assert (Z : form 3 (of_rows [[1 / 6; 1 / 12; 1 / 12]; [1 / 12; 1 / 6; 1 / 12]; [1 / 12; 1 / 12; 1 / 6]]) w w = 0) by (apply (Rmult_eq_reg_l (tri_area p q r)); [|lra]; lra).
  unfold form, of_rows in Z. cbn [rsum nth] in Z. set (a := w 0%nat) in *. set (b := w 1%nat) in *. set (c := w 2%nat) in *.
  assert (Y : a * a + b * b + c * c + (a + b + c) * (a + b + c) = 0) by lra. assert (0 <= a * a /\ 0 <= b * b /\ 0 <= c * c /\ 0 <= (a + b + c) * (a + b + c)) as (A1 & A2 & A3 & A4) by (repeat split; apply Rle_0_sqr).
  intros i Hi. destruct i as [|[|[|i]]]; [| | |lia]; [fold a|fold b|fold c]; apply Rsqr_0_uniq; unfold Rsqr; lra.
Qed.
Lemma tet_mass_zero p q r s w : 0 < tet_volume p q r s -> form 4 (tet_ddt 1 p q r s) w w = 0 -> forall i, (i < 4)%nat -> w i = 0.
Proof.
  intros HA. unfold tet_ddt. rewrite per_dt_pos by lra. rewrite !form_scale. intros E.
  assert (Z : form 4 (of_rows [[1 / 10; 1 / 20; 1 / 20; 1 / 20]; [1 / 20; 1 / 10; 1 / 20; 1 / 20]; [1 / 20; 1 / 20; 1 / 10; 1 / 20]; [1 / 20; 1 / 20; 1 / 20; 1 / 10]]) w w = 0) by (apply (Rmult_eq_reg_l (tet_volume p q r s)); [|lra]; lra).
  unfold form, of_rows in Z. cbn [rsum nth] in Z. set (a := w 0%nat) in *. set (b := w 1%nat) in *. set (c := w 2%nat) in *. set (d := w 3%nat) in *.
  assert (Y : a * a + b * b + c * c + d * d + (a + b + c + d) * (a + b + c + d) = 0) by lra. assert (0 <= a * a /\ 0 <= b * b /\ 0 <= c * c /\ 0 <= d * d /\ 0 <= (a + b + c + d) * (a + b + c + d)) as (A1 & A2 & A3 & A4 & A5) by (repeat split; apply Rle_0_sqr).
  intros i Hi. destruct i as [|[|[|[|i]]]]; [| | | |lia]; [fold a|fold b|fold c|fold d]; apply Rsqr_0_uniq; unfold Rsqr; lra.
Qed.
Lemma lsum_zero_each {A} (f : A -> R) l : (forall x, In x l -> 0 <= f x) -> lsum f l = 0 -> forall x, In x l -> f x = 0.
Proof.
  induction l as [|y l IH]; intros P Z x Hx; [destruct Hx|]. cbn [lsum fold_right] in Z. fold (lsum f l) in Z. assert (0 <= lsum f l) by (apply lsum_nonneg; intros; apply P; now right). assert (0 <= f y) by (apply P; now left).
  destruct Hx as [<-|Hx]; [lra|]. apply IH; [intros; apply P; now right|lra|exact Hx].
Qed.
Lemma ddt_well_posed nodes elems A fx : flow_mesh nodes elems -> (forall id e, t_get elems id = Ok e -> sound_element nodes e) -> covered nodes elems ->
  (forall t f, form (length (t_ids nodes)) A t f = lsum (share is_either (fun _ vs _ => match vs with [p; q; r] => Ok (tri_ddt 1 p q r) | [p; q; r; s] => Ok (tet_ddt 1 p q r s) | _ => UB end) nodes t f) (elements elems)) ->
  well_posed (length (t_ids nodes)) fx A.
Proof.
  intros M S Cv F y Hy i Hi. set (n := length (t_ids nodes)) in *.
  assert (Z : form n A y y = 0). { unfold form. apply rsum_zero. intros k Hk. specialize (Hy k Hk). destruct (fx k); rewrite Hy; ring. }
  rewrite F in Z. destruct (Cv i Hi) as (id & e & He & Hid & HB & Hin).
  assert (Pos : forall e, In e (elements elems) -> 0 <= share is_either (fun _ vs _ => match vs with [p; q; r] => Ok (tri_ddt 1 p q r) | [p; q; r; s] => Ok (tet_ddt 1 p q r s) | _ => UB end) nodes y y e).
  { intros e' He'. destruct (elements_in elems e' He') as [id' Hid']. specialize (S id' e' Hid'). unfold sound_element in S. unfold share. destruct (is_either (e_type e') (length (e_nodes e'))) eqn:HB'; [|lra]. cbv zeta. rewrite (nodes_length nodes e').
    destruct (either_shape e' nodes HB') as [(T & p & q & r & Ev)|(T & p & q & r & s & Ev)]; rewrite T, Ev in S; rewrite Ev; cbn [length]; [apply tri_mass_psd|now apply tet_mass_psd]. }
  assert (In e (elements elems)) as Ine by (unfold elements; apply in_flat_map; exists id; rewrite He; split; [exact Hid|now left]).
  pose proof (lsum_zero_each _ _ Pos Z e Ine) as Z0. specialize (S id e He). unfold sound_element in S. unfold share in Z0. rewrite HB in Z0. cbv zeta in Z0. rewrite (nodes_length nodes e) in Z0.
  apply (In_nth _ _ 0%nat) in Hin. destruct Hin as (k & Hk & <-). rewrite map_length, (nodes_length nodes e) in Hk. change (at_positions (map (pos_of nodes) (e_nodes e)) y k = 0).
  destruct (either_shape e nodes HB) as [(T & p & q & r & Ev)|(T & p & q & r & s & Ev)]; rewrite T, Ev in S; rewrite Ev in Z0, Hk; cbn [length] in Z0, Hk.
  - exact (tri_mass_zero p q r _ S Z0 k Hk).
  - exact (tet_mass_zero p q r s _ S Z0 k Hk).
Qed.

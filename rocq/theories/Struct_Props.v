(** C86: assembled structural systems. *)
From Coq Require Import Reals ZArith QArith List Lia Lra Bool Relations.
From Verif Require Import Prelude ZMap Vec Mesh_Model Mesh_Spec Mesh_Proofs Fem_Model Fem_Spec Fem_Proofs Fem_Props Fem_Struct Asm_Model Asm_Props Struct_Model.
Import ListNotations.
Open Scope R_scope.

(** ** Vocabulary *)
(** A displacement field at the unknowns: d per node, in the order of the nodes. *)
Definition displacement (d : nat) (f : affine) (nodes : table pt) : nat -> R := fun i => coordinate (i mod d) (move f (node_at nodes (i / d))).
Definition place (nodes : table pt) (id : Z) : pt := match t_get nodes id with Ok p => p | _ => origin end.
Record plane_mesh (thickness : Z -> R) (nodes : table pt) (elems : table element) : Prop := {
  pm_nodes : wf_table nodes; pm_index : indexed nodes; pm_elems : wf_table elems;
  pm_flat : forall id p, t_get nodes id = Ok p -> pz p = 0;
  pm_triangles : forall id e, t_get elems id = Ok e -> e_type e = ET_TRIANGLE /\ 0 < thickness id /\
     exists a b c, e_nodes e = [a; b; c] /\ In a (t_ids nodes) /\ In b (t_ids nodes) /\ In c (t_ids nodes) /\ 0 < tri_area (place nodes a) (place nodes b) (place nodes c) }.
Record space_mesh (nodes : table pt) (elems : table element) : Prop := {
  sm_nodes : wf_table nodes; sm_index : indexed nodes; sm_elems : wf_table elems;
  sm_tets : forall id e, t_get elems id = Ok e -> e_type e = ET_TETRAHEDRON /\
     exists a b c d, e_nodes e = [a; b; c; d] /\ In a (t_ids nodes) /\ In b (t_ids nodes) /\ In c (t_ids nodes) /\ In d (t_ids nodes) /\
       0 < tet_volume (place nodes a) (place nodes b) (place nodes c) (place nodes d) }.
Definition area_of (nodes : table pt) (elems : table element) (id : Z) : R :=
  match t_get elems id with Ok e => match map (place nodes) (e_nodes e) with [a; b; c] => tri_area a b c | _ => 0 end | _ => 0 end.
Definition volume_of (nodes : table pt) (elems : table element) (id : Z) : R :=
  match t_get elems id with Ok e => match map (place nodes) (e_nodes e) with [a; b; c; d] => tet_volume a b c d | _ => 0 end | _ => 0 end.

(** ** The assembled matrix as a sum over elements *)
Definition struct_part (d : nat) (E v : R) (thickness : Z -> R) (nodes : table pt) (elems : table element) (w u : nat -> R) (id : Z) : R :=
  match t_get elems id with
  | Ok e => match struct_shape E v (thickness id) (e_type e) (vertices nodes e) with
            | Some (_, K) => let pos := dofs d (map (pos_of nodes) (e_nodes e)) in form (length pos) K (at_positions pos w) (at_positions pos u)
            | None => 0
            end
  | _ => 0
  end.
Lemma dofs_length d pos : length (dofs d pos) = (length pos * d)%nat.
Proof. unfold dofs. induction pos as [|p pos IH]; [reflexivity|]. cbn [flat_map length]. rewrite app_length, IH, map_length, seq_length. lia. Qed.
Lemma dofs_bound d n pos : List.Forall (fun p => (p < n)%nat) pos -> List.Forall (fun p => (p < n * d)%nat) (dofs d pos).
Proof.
  intros F. unfold dofs. apply List.Forall_forall. intros q Hq. apply in_flat_map in Hq. destruct Hq as (p & Hp & Hq). apply in_map_iff in Hq. destruct Hq as (k & <- & Hk). apply in_seq in Hk.
  rewrite List.Forall_forall in F. specialize (F p Hp). nia.
Qed.
Lemma struct_sum d E v thickness nodes elems : wf_table nodes -> indexed nodes -> wf_table elems ->
  (forall id e, t_get elems id = Ok e -> List.Forall (fun n => In n (t_ids nodes)) (e_nodes e)) ->
  (forall id e, t_get elems id = Ok e -> (e_type e = ET_TRIANGLE /\ length (e_nodes e) = 3%nat /\ d = 2%nat) \/ (e_type e = ET_TETRAHEDRON /\ length (e_nodes e) = 4%nat /\ d = 3%nat)) ->
  exists K, fem_structural d E v thickness nodes elems = Ok K /\
    forall w u, form (length (t_ids nodes) * d) K w u = lsum (struct_part d E v thickness nodes elems w u) (t_ids elems).
Proof.
  intros W I WE R T. unfold fem_structural.
  rewrite (foldM_positions elems (fun A id e => if struct_branch (e_type e) (length (e_nodes e)) then vs <- mapM (t_get nodes) (e_nodes e) ;; pos <- positions nodes (e_nodes e) ;;
     match struct_shape E v (thickness id) (e_type e) vs with Some (size, K) => if Nat.leb (length pos * d) size then Ok (stamp (dofs d pos) K A) else UB | None => Ok A end else Ok A)) by exact WE.
  apply (foldM_invariant _ (fun done K => forall w u, form (length (t_ids nodes) * d) K w u = lsum (struct_part d E v thickness nodes elems w u) done)).
  - intros w u. apply form_zero.
  - intros done id rest A Ed IH. destruct (wf_get elems id WE) as [e He]; [rewrite Ed; apply in_or_app; right; now left|]. rewrite He. cbn [bind]. specialize (R id e He). specialize (T id e He).
    assert (HB : struct_branch (e_type e) (length (e_nodes e)) = true) by (destruct T as [(-> & -> & _)|(-> & -> & _)]; reflexivity). rewrite HB.
    rewrite (mapM_get nodes _ W R). cbn [bind]. destruct (positions_ok nodes _ I R) as [-> PF]. cbn [bind]. fold (vertices nodes e).
    assert (HS : exists K, struct_shape E v (thickness id) (e_type e) (vertices nodes e) = Some ((length (e_nodes e) * d)%nat, K)).
    { assert (L : length (vertices nodes e) = length (e_nodes e)) by apply map_length. destruct T as [(-> & Hl & ->)|(-> & Hl & ->)]; rewrite Hl in *; destruct (vertices nodes e) as [|? [|? [|? [|? [|]]]]]; cbn in L; try discriminate; cbn; eauto. }
    destruct HS as (K & HK). rewrite HK, map_length, Nat.leb_refl. eexists. split; [reflexivity|]. intros w u. rewrite form_stamp by now apply dofs_bound. rewrite IH, lsum_app. f_equal.
    unfold lsum, struct_part. cbn [fold_right]. rewrite He, HK. cbv zeta. ring.
Qed.
Lemma place_at (nodes : table pt) id : indexed nodes -> In id (t_ids nodes) -> node_at nodes (pos_of nodes id) = place nodes id.
Proof. intros I H. destruct (index_in nodes id I H) as (k & _ & Ek & Nk). unfold pos_of. rewrite Ek, Nat2Z.id. unfold node_at, place. now rewrite Nk. Qed.
Lemma displacement_at d f nodes id k : indexed nodes -> In id (t_ids nodes) -> (k < d)%nat -> displacement d f nodes (pos_of nodes id * d + k) = coordinate k (move f (place nodes id)).
Proof.
  intros I H Hk. unfold displacement. rewrite Nat.add_comm. rewrite Nat.mod_add, Nat.div_add by lia. rewrite Nat.mod_small, Nat.div_small by lia. cbn [Nat.add]. now rewrite place_at.
Qed.
(** Displacements seen from one element. *)
Lemma seen2 f nodes a b c i : indexed nodes -> In a (t_ids nodes) -> In b (t_ids nodes) -> In c (t_ids nodes) -> (i < 6)%nat ->
  at_positions (dofs 2 (map (pos_of nodes) [a; b; c])) (displacement 2 f nodes) i = nodal 2 f (map (place nodes) [a; b; c]) i.
Proof.
  intros I A B C Hi. unfold at_positions, dofs. do 6 (destruct i as [|i]; [cbn [map flat_map seq app nth]; rewrite displacement_at by (auto; lia); reflexivity|]). lia.
Qed.
Lemma seen3 f nodes a b c e i : indexed nodes -> In a (t_ids nodes) -> In b (t_ids nodes) -> In c (t_ids nodes) -> In e (t_ids nodes) -> (i < 12)%nat ->
  at_positions (dofs 3 (map (pos_of nodes) [a; b; c; e])) (displacement 3 f nodes) i = nodal 3 f (map (place nodes) [a; b; c; e]) i.
Proof.
  intros I A B C D Hi. unfold at_positions, dofs. do 12 (destruct i as [|i]; [cbn [map flat_map seq app nth]; rewrite displacement_at by (auto; lia); reflexivity|]). lia.
Qed.
Lemma form_force n K w u : (forall i, (i < n)%nat -> force n K u i = 0) -> form n K w u = 0.
Proof. intros H. unfold form. apply rsum_zero. intros i Hi. specialize (H i Hi). unfold force in H. rewrite H. ring. Qed.
Lemma lsum_zero {A} (f : A -> R) l : (forall x, In x l -> f x = 0) -> lsum f l = 0.
Proof. intros H. rewrite (lsum_ext f (fun _ => 0 * 0)) by (intros x Hx; rewrite H by exact Hx; ring). rewrite lsum_scale. ring. Qed.
Lemma lsum_nonneg_zero {A} (f : A -> R) l : (forall x, In x l -> 0 <= f x) -> lsum f l = 0 -> forall x, In x l -> f x = 0.
Proof.
  unfold lsum. induction l as [|y l IH]; intros H Z x [].
  - subst. cbn in Z. assert (0 <= f x) by (apply H; now left). assert (0 <= fold_right (fun x a => f x + a) 0 l) by (apply (lsum_nonneg f l); intros; apply H; now right). lra.
  - cbn in Z. assert (0 <= f y) by (apply H; now left). assert (0 <= fold_right (fun x a => f x + a) 0 l) by (apply (lsum_nonneg f l); intros; apply H; now right). apply IH; auto; [intros; apply H; now right|lra].
Qed.

Section Plane.
Context (E v : R) (thickness : Z -> R) (nodes : table pt) (elems : table element) (M : plane_mesh thickness nodes elems) (HE : 0 < E) (Hv : -1 < v < 1).
Let n := (length (t_ids nodes) * 2)%nat.
Lemma place_flat id : In id (t_ids nodes) -> pz (place nodes id) = 0.
Proof. intros H. destruct (wf_get nodes id (pm_nodes _ _ _ M) H) as (p & Hp). unfold place. rewrite Hp. eapply pm_flat; eauto. Qed.
Lemma plane_sum : exists K, fem_structural 2 E v thickness nodes elems = Ok K /\ forall w u, form n K w u = lsum (struct_part 2 E v thickness nodes elems w u) (t_ids elems).
Proof.
  apply struct_sum; try apply M.
  - intros id e H. destruct (pm_triangles _ _ _ M id e H) as (_ & _ & a & b & c & -> & A & B & C & _). repeat constructor; assumption.
  - intros id e H. destruct (pm_triangles _ _ _ M id e H) as (-> & _ & a & b & c & -> & _). left. auto.
Qed.
Lemma plane_part id : In id (t_ids elems) -> exists e a b c, t_get elems id = Ok e /\ e_nodes e = [a; b; c] /\ (In a (t_ids nodes) /\ In b (t_ids nodes) /\ In c (t_ids nodes)) /\
  0 < tri_area (place nodes a) (place nodes b) (place nodes c) /\ 0 < thickness id /\
  forall w u, struct_part 2 E v thickness nodes elems w u id = form 6 (cst_stiffness E v (thickness id) (place nodes a) (place nodes b) (place nodes c))
     (at_positions (dofs 2 (map (pos_of nodes) [a; b; c])) w) (at_positions (dofs 2 (map (pos_of nodes) [a; b; c])) u).
Proof.
  intros H. destruct (wf_get elems id (pm_elems _ _ _ M) H) as (e & He). destruct (pm_triangles _ _ _ M id e He) as (T & Th & a & b & c & N & A & B & C & Ar).
  exists e, a, b, c. repeat (split; auto). intros w u. unfold struct_part. rewrite He, T. unfold vertices. rewrite N. cbn [map struct_shape]. cbv zeta. rewrite dofs_length. reflexivity.
Qed.
End Plane.

(** Every plane mesh of triangles with positive areas, Young's modulus E > 0 and Poisson ratio -1 < v < 1: the matrix exists and is symmetric; rigid
    motions cause no force; the internal forces of any displacement do no work in a rigid motion (they and their moments add up to zero); affine
    displacements have exactly the energy of plane stress times the area; energy is never negative. *)
Theorem C86_plane : forall E v thickness nodes elems, plane_mesh thickness nodes elems -> 0 < E -> -1 < v < 1 ->
  exists K, fem_structural 2 E v thickness nodes elems = Ok K /\
    let n := (length (t_ids nodes) * 2)%nat in
    symmetric n K /\
    (forall f i, rigid2 f -> (i < n)%nat -> force n K (displacement 2 f nodes) i = 0) /\
    (forall f u, rigid2 f -> rsum n (fun i => displacement 2 f nodes i * force n K u i) = 0) /\
    (forall h f, form n K (displacement 2 h nodes) (displacement 2 f nodes) = plane_energy E v h f * lsum (fun id => area_of nodes elems id * thickness id) (t_ids elems)) /\
    (forall u, 0 <= form n K u u).
Proof.
  intros E v th nodes elems M HE Hv. destruct (plane_sum E v th nodes elems M) as (K & EK & F). exists K. split; [exact EK|]. cbv zeta. set (n := (length (t_ids nodes) * 2)%nat) in *.
  assert (I := pm_index _ _ _ M).
  assert (Sym : symmetric n K).
  { intros i j Hi Hj. rewrite <- (form_delta n K i j), <- (form_delta n K j i), !F by assumption. apply lsum_ext. intros id Hid. destruct (plane_part E v th nodes elems M id Hid) as (e & a & b & c & He & Hn & (A & B & C) & Ar & Th & P). rewrite !P.
    apply form_swap. apply C47_triangle; auto; eapply place_flat; eauto. }
  assert (Rig : forall f i, rigid2 f -> (i < n)%nat -> force n K (displacement 2 f nodes) i = 0).
  { intros f i Hf Hi. unfold force. rewrite <- (form_delta_l n K i), F by exact Hi. apply lsum_zero. intros id Hid. destruct (plane_part E v th nodes elems M id Hid) as (e & a & b & c & He & Hn & (A & B & C) & Ar & Th & P). rewrite P.
    rewrite (form_ext_fields 6 _ _ (at_positions (dofs 2 (map (pos_of nodes) [a; b; c])) (delta i)) _ (nodal 2 f (map (place nodes) [a; b; c]))); [|reflexivity|intros; now apply seen2].
    apply form_force. intros k _. apply C47_triangle; auto; eapply place_flat; eauto. }
  split; [exact Sym|]. split; [exact Rig|]. split; [|split].
  - intros f u Hf. change (form n K (displacement 2 f nodes) u = 0). rewrite form_swap by exact Sym. apply form_force. intros; now apply Rig.
  - intros h f. rewrite F, <- lsum_scale. apply lsum_ext. intros id Hid. destruct (plane_part E v th nodes elems M id Hid) as (e & a & b & c & He & Hn & (A & B & C) & Ar & Th & P). rewrite P.
    rewrite (form_ext_fields 6 _ _ (nodal 2 h (map (place nodes) [a; b; c])) _ (nodal 2 f (map (place nodes) [a; b; c]))); [|intros; now apply seen2..].
    cbn [map]. unfold area_of. rewrite He, Hn. cbn [map]. assert (Z : forall x, In x (t_ids nodes) -> pz (place nodes x) = 0) by (intros; eapply place_flat; eauto).
    exact (proj1 (proj2 (proj2 (C47_triangle E v (th id) (place nodes a) (place nodes b) (place nodes c) (Z a A) (Z b B) (Z c C) Ar Th HE Hv))) h f).
  - intros u. rewrite F. apply lsum_nonneg. intros id Hid. destruct (plane_part E v th nodes elems M id Hid) as (e & a & b & c & He & Hn & (A & B & C) & Ar & Th & P). rewrite P. apply C47_triangle; auto; eapply place_flat; eauto.
Qed.
Print Assumptions C86_plane.

(** ** Only rigid motions are free of energy *)
Definition share_edge (elems : table element) (x y : Z) : Prop :=
  exists e e' p q, t_get elems x = Ok e /\ t_get elems y = Ok e' /\ p <> q /\ (In p (e_nodes e) /\ In q (e_nodes e)) /\ (In p (e_nodes e') /\ In q (e_nodes e')).
(** Every element is reached from every other one across edges. *)
Definition edge_connected (elems : table element) : Prop := forall x y, In x (t_ids elems) -> In y (t_ids elems) -> clos_refl_trans Z (share_edge elems) x y.
Definition in_use (elems : table element) (nd : Z) : Prop := exists id e, t_get elems id = Ok e /\ In nd (e_nodes e).
(** Unknown k of a node. *)
Definition at_node (nodes : table pt) (d : nat) (u : nat -> R) (nd : Z) (k : nat) : R := u (pos_of nodes nd * d + k)%nat.
(** The rotation w with translation (tx, ty). *)
Definition turned (tx ty w : R) (p : pt) : R * R := (tx - w * py p, ty + w * px p).

Lemma area_distinct a b c : 0 < tri_area a b c -> a <> b /\ b <> c /\ a <> c.
Proof.
  assert (Z : forall a b c, tri_normal a b c = P 0 0 0 -> ~ 0 < tri_area a b c).
  { intros x y z H. unfold tri_area. rewrite H, (pnorm_unique (P 0 0 0) 0); [lra|lra|]. unfold pdot. cbn. ring. }
  intros H. repeat split; intros ->; revert H; apply Z; unfold tri_normal, pcross, psub; cbn; f_equal; ring.
Qed.
Lemma flat_differ (p q : pt) : pz p = 0 -> pz q = 0 -> p <> q -> px p <> px q \/ py p <> py q.
Proof. destruct p as [x y z], q as [x' y' z']. cbn. intros -> -> H. destruct (Req_EM_T x x') as [->|]; [|now left]. destruct (Req_EM_T y y') as [->|]; [congruence|now right]. Qed.
Lemma turned_unique p q tx ty w tx' ty' w' : pz p = 0 -> pz q = 0 -> p <> q -> turned tx ty w p = turned tx' ty' w' p -> turned tx ty w q = turned tx' ty' w' q -> tx = tx' /\ ty = ty' /\ w = w'.
Proof.
  intros Zp Zq Ne A B. unfold turned in *. injection A as A1 A2. injection B as B1 B2.
  assert (W : (w - w') * (py p - py q) = 0 /\ (w - w') * (px p - px q) = 0) by (split; lra). destruct W as (W1 & W2).
  assert (w - w' = 0) by (apply Rmult_integral in W1, W2; destruct (flat_differ p q Zp Zq Ne); destruct W1, W2; lra).
  assert (w = w') by lra. subst. repeat split; lra.
Qed.
Section Rigid.
Context (E v : R) (thickness : Z -> R) (nodes : table pt) (elems : table element) (M : plane_mesh thickness nodes elems) (HE : 0 < E) (Hv : -1 < v < 1).
Lemma element_rigid u id : In id (t_ids elems) -> struct_part 2 E v thickness nodes elems u u id = 0 ->
  exists tx ty w, forall e nd, t_get elems id = Ok e -> In nd (e_nodes e) -> (at_node nodes 2 u nd 0, at_node nodes 2 u nd 1) = turned tx ty w (place nodes nd).
Proof.
  intros Hid Z. destruct (plane_part E v thickness nodes elems M id Hid) as (e & a & b & c & He & Hn & (A & B & C) & Ar & Th & P). rewrite P in Z.
  destruct (C47_triangle E v (thickness id) (place nodes a) (place nodes b) (place nodes c)) as (_ & _ & _ & _ & X); auto; try (eapply place_flat; eauto).
  destruct (X _ Z) as (tx & ty & w & R1 & R2 & R3). exists tx, ty, w. intros e' nd He' Hnd. rewrite He in He'. injection He' as <-. rewrite Hn in Hnd.
  destruct Hnd as [<- | [<- | [<- | []]]]; assumption.
Qed.
End Rigid.
(** A displacement without energy is a rigid motion of all nodes in use, if the mesh hangs together across edges. *)
Theorem C86_only_rigid : forall E v thickness nodes elems, plane_mesh thickness nodes elems -> edge_connected elems -> 0 < E -> -1 < v < 1 ->
  exists K, fem_structural 2 E v thickness nodes elems = Ok K /\
    forall u, form (length (t_ids nodes) * 2) K u u = 0 ->
      exists tx ty w, forall nd, in_use elems nd -> (at_node nodes 2 u nd 0, at_node nodes 2 u nd 1) = turned tx ty w (place nodes nd).
Proof.
  intros E v th nodes elems M Con HE Hv. destruct (plane_sum E v th nodes elems M) as (K & EK & F). exists K. split; [exact EK|]. intros u Z. rewrite F in Z.
  assert (Each : forall id, In id (t_ids elems) -> exists tx ty w, forall e nd, t_get elems id = Ok e -> In nd (e_nodes e) -> (at_node nodes 2 u nd 0, at_node nodes 2 u nd 1) = turned tx ty w (place nodes nd)).
  { intros id Hid. apply (element_rigid E v th nodes elems M HE Hv u id Hid). apply (lsum_nonneg_zero _ _) with (2 := Z); [|exact Hid].
    intros x Hx. destruct (plane_part E v th nodes elems M x Hx) as (e & a & b & c & He & Hn & (A & B & C) & Ar & Th & P). rewrite P. apply C47_triangle; auto; eapply place_flat; eauto. }
  destruct (t_ids elems) as [|x0 rest] eqn:Ids.
  { exists 0, 0, 0. intros nd (id & e & He & _). apply wf_get_in in He; [|apply M]. rewrite Ids in He. destruct He. }
  assert (H0 : In x0 (t_ids elems)) by (rewrite Ids; now left). rewrite <- Ids in *. destruct (Each x0 H0) as (tx & ty & w & R0). exists tx, ty, w.
  intros nd (id & e & He & Hnd). assert (Hid : In id (t_ids elems)) by (eapply wf_get_in; [apply M|exact He]). specialize (Con x0 id H0 Hid). revert e nd He Hnd.
  apply clos_rt_rtn1 in Con. induction Con as [|y z (e1 & e2 & p & q & G1 & G2 & Ne & (P1 & Q1) & (P2 & Q2)) Con IH]; intros e nd He Hnd; [now apply (R0 e)|].
  assert (Hy : In y (t_ids elems)) by (eapply wf_get_in; [apply M|exact G1]). specialize (IH Hy). assert (He2 : e2 = e) by congruence. subst e2.
  destruct (Each z Hid) as (tx' & ty' & w' & R1). rewrite (R1 e nd He Hnd).
  destruct (pm_triangles _ _ _ M z e He) as (_ & _ & a & b & c & N & A & B & C & Ar). destruct (area_distinct _ _ _ Ar) as (D1 & D2 & D3). rewrite N in P2, Q2.
  assert (Ip : In p (t_ids nodes)) by (destruct P2 as [<- | [<- | [<- | []]]]; assumption). assert (Iq : In q (t_ids nodes)) by (destruct Q2 as [<- | [<- | [<- | []]]]; assumption).
  assert (Dif : place nodes p <> place nodes q) by (destruct P2 as [<- | [<- | [<- | []]]], Q2 as [<- | [<- | [<- | []]]]; congruence).
  assert (U : tx = tx' /\ ty = ty' /\ w = w').
  { apply (turned_unique (place nodes p) (place nodes q)); [eapply place_flat; eauto|eapply place_flat; eauto|exact Dif| |].
    - rewrite <- (IH e1 p G1 P1). apply (R1 e); [exact He|]. now rewrite N.
    - rewrite <- (IH e1 q G1 Q1). apply (R1 e); [exact He|]. now rewrite N. }
  destruct U as (-> & -> & ->). reflexivity.
Qed.
Print Assumptions C86_only_rigid.
(** Held at two different places, the structure has at most one equilibrium: two displacements with the same values where unknowns are
    prescribed and the same forces at all other unknowns agree at every node in use. *)
Theorem C86_unique : forall E v thickness nodes elems, plane_mesh thickness nodes elems -> edge_connected elems -> 0 < E -> -1 < v < 1 ->
  exists K, fem_structural 2 E v thickness nodes elems = Ok K /\
    let n := (length (t_ids nodes) * 2)%nat in
    forall u u' p q, in_use elems p -> in_use elems q -> place nodes p <> place nodes q ->
      (forall k, (k < 2)%nat -> at_node nodes 2 u p k = at_node nodes 2 u' p k /\ at_node nodes 2 u q k = at_node nodes 2 u' q k) ->
      (forall i, (i < n)%nat -> u i = u' i \/ force n K u i = force n K u' i) ->
      forall nd k, in_use elems nd -> (k < 2)%nat -> at_node nodes 2 u nd k = at_node nodes 2 u' nd k.
Proof.
  intros E v th nodes elems M Con HE Hv. destruct (C86_only_rigid E v th nodes elems M Con HE Hv) as (K & EK & Rig). exists K. split; [exact EK|]. cbv zeta. set (n := (length (t_ids nodes) * 2)%nat) in *.
  intros u u' p q Up Uq Ne Held Free nd k Und Hk. set (d := fun i => u i - u' i).
  assert (Fd : forall i, force n K d i = force n K u i - force n K u' i).
  { intros i. unfold force, d. rewrite (rsum_ext n _ (fun j => K i j * u j + (-1) * (K i j * u' j))) by (intros; ring). rewrite rsum_add, rsum_scale. ring. }
  assert (Z : form n K d d = 0).
  { unfold form. apply rsum_zero. intros i Hi. change (d i * force n K d i = 0). rewrite Fd. destruct (Free i Hi) as [X|X]; unfold d; rewrite X; ring. }
  assert (Used : forall x, in_use elems x -> In x (t_ids nodes)).
  { intros x (id & e & He & Hx). destruct (pm_triangles _ _ _ M id e He) as (_ & _ & a & b & c & N & A & B & C & _). rewrite N in Hx. destruct Hx as [<- | [<- | [<- | []]]]; assumption. }
  destruct (Rig d Z) as (tx & ty & w & R0).
  assert (Z0 : forall x, turned 0 0 0 x = (0, 0)) by (intros x; unfold turned; f_equal; ring).
  assert (U : tx = 0 /\ ty = 0 /\ w = 0).
  { apply (turned_unique (place nodes p) (place nodes q)); [eapply place_flat; eauto|eapply place_flat; eauto|exact Ne| |]; rewrite Z0; rewrite <- R0 by assumption; unfold at_node, d in *.
    - destruct (Held 0%nat) as (H0 & _); [lia|]. destruct (Held 1%nat) as (H1 & _); [lia|]. f_equal; lra.
    - destruct (Held 0%nat) as (_ & H0); [lia|]. destruct (Held 1%nat) as (_ & H1); [lia|]. f_equal; lra. }
  destruct U as (-> & -> & ->). specialize (R0 nd Und). rewrite Z0 in R0. injection R0 as R1 R2. unfold at_node, d in *. destruct k as [|[|]]; [lra|lra|lia].
Qed.
Print Assumptions C86_unique.

(** ** Tetrahedra *)
(** Every mesh of positively oriented tetrahedra and all material constants: rigid motions cause no force, internal forces and their moments
    add up to zero, an affine displacement has the energy density of the coded material times the volume. *)
Theorem C86_space : forall E v thickness nodes elems, space_mesh nodes elems -> -1 < v < 1 / 2 ->
  exists K, fem_structural 3 E v thickness nodes elems = Ok K /\
    let n := (length (t_ids nodes) * 3)%nat in
    (forall f i, rigid3 f -> (i < n)%nat -> force n K (displacement 3 f nodes) i = 0) /\
    (forall f u, rigid3 f -> rsum n (fun i => displacement 3 f nodes i * force n K u i) = 0) /\
    (forall f, form n K (displacement 3 f nodes) (displacement 3 f nodes) = coded_energy E v (strain3 f) * lsum (volume_of nodes elems) (t_ids elems)) /\
    (0 <= E -> 3 * v * v + 3 * v <= 2 -> forall u, 0 <= form n K u u).
Proof.
  intros E v th nodes elems M Hv.
  destruct (struct_sum 3 E v th nodes elems) as (K & EK & F); try apply M.
  { intros id e H. destruct (sm_tets _ _ M id e H) as (_ & a & b & c & d & -> & A & B & C & D & _). repeat constructor; assumption. }
  { intros id e H. destruct (sm_tets _ _ M id e H) as (-> & a & b & c & d & -> & _). right. auto. }
  exists K. split; [exact EK|]. cbv zeta. set (n := (length (t_ids nodes) * 3)%nat) in *. assert (I := sm_index _ _ M).
  assert (Part : forall id, In id (t_ids elems) -> exists e a b c d, t_get elems id = Ok e /\ e_nodes e = [a; b; c; d] /\ (In a (t_ids nodes) /\ In b (t_ids nodes) /\ In c (t_ids nodes) /\ In d (t_ids nodes)) /\
    0 < tet_volume (place nodes a) (place nodes b) (place nodes c) (place nodes d) /\
    forall w u, struct_part 3 E v th nodes elems w u id = form 12 (tet_stiffness E v (place nodes a) (place nodes b) (place nodes c) (place nodes d))
     (at_positions (dofs 3 (map (pos_of nodes) [a; b; c; d])) w) (at_positions (dofs 3 (map (pos_of nodes) [a; b; c; d])) u)).
  { intros id H. destruct (wf_get elems id (sm_elems _ _ M) H) as (e & He). destruct (sm_tets _ _ M id e He) as (T & a & b & c & d & N & A & B & C & D & Vo).
    exists e, a, b, c, d. repeat (split; auto). intros w u. unfold struct_part. rewrite He, T. unfold vertices. rewrite N. cbn [map struct_shape]. cbv zeta. rewrite dofs_length. reflexivity. }
  split; [|split; [|split]].
  - intros f i Hf Hi. unfold force. rewrite <- (form_delta_l n K i), F by exact Hi. apply lsum_zero. intros id Hid. destruct (Part id Hid) as (e & a & b & c & d & He & Hn & (A & B & C & D) & Vo & P). rewrite P.
    rewrite (form_ext_fields 12 _ _ (at_positions (dofs 3 (map (pos_of nodes) [a; b; c; d])) (delta i)) _ (nodal 3 f (map (place nodes) [a; b; c; d]))); [|reflexivity|intros; now apply seen3].
    apply form_force. intros k _. apply C47_tetrahedron_rigid; [lra|exact Hf].
  - intros f u Hf. change (form n K (displacement 3 f nodes) u = 0). rewrite F. apply lsum_zero. intros id Hid. destruct (Part id Hid) as (e & a & b & c & d & He & Hn & (A & B & C & D) & Vo & P). rewrite P.
    rewrite (form_ext_fields 12 _ _ (nodal 3 f (map (place nodes) [a; b; c; d])) _ (at_positions (dofs 3 (map (pos_of nodes) [a; b; c; d])) u)); [|intros; now apply seen3|reflexivity].
    unfold tet_stiffness. rewrite form_scale, form_BtDB. rewrite rsum_zero; [ring|]. intros m Hm. cbn [map]. rewrite tet_strain_affine by (try lra; exact Hm).
    unfold rigid3 in Hf. rewrite List.Forall_forall in Hf. rewrite (Hf (nth m (strain3 f) 0)); [ring|]. apply nth_In. exact Hm.
  - intros f. rewrite F, <- lsum_scale. apply lsum_ext. intros id Hid. destruct (Part id Hid) as (e & a & b & c & d & He & Hn & (A & B & C & D) & Vo & P). rewrite P.
    rewrite (form_ext_fields 12 _ _ (nodal 3 f (map (place nodes) [a; b; c; d])) _ (nodal 3 f (map (place nodes) [a; b; c; d]))) by (intros; now apply seen3).
    cbn [map]. unfold volume_of. rewrite He, Hn. cbn [map]. rewrite tet_form by exact Hv. rewrite (map_ext_in _ (fun k => nth k (strain3 f) 0)).
    2:{ intros k Hk. apply in_seq in Hk. apply tet_strain_affine; [lra|lia]. }
    change (map (fun k => nth k (strain3 f) 0) (seq 0 6)) with (strain3 f). ring.
  - intros HE Hq u. rewrite F. apply lsum_nonneg. intros id Hid. destruct (Part id Hid) as (e & a & b & c & d & He & Hn & (A & B & C & D) & Vo & P). rewrite P. now apply C47_tetrahedron_energy.
Qed.
Print Assumptions C86_space.

(** ** Cases and limits *)
(** Two triangles on a square: a plane mesh, connected across the diagonal. *)
Definition plate_nodes : table pt := table_of [P 0 0 0; P 1 0 0; P 0 1 0; P 1 1 0].
Definition plate_elems : table element := table_of [tri 0 1 2; tri 1 3 2].
Example C86_case : plane_mesh (fun _ => 1) plate_nodes plate_elems /\ edge_connected plate_elems /\
  lsum (fun id => area_of plate_nodes plate_elems id * 1) (t_ids plate_elems) = 1.
Proof.
  assert (A1 : tri_area (P 0 0 0) (P 1 0 0) (P 0 1 0) = 1 / 2) by (apply half; unfold tri_normal, pdot, pcross, psub; cbn; ring).
  assert (A2 : tri_area (P 1 0 0) (P 1 1 0) (P 0 1 0) = 1 / 2) by (apply half; unfold tri_normal, pdot, pcross, psub; cbn; ring).
  split; [|split].
  - destruct (table_of_wf [P 0 0 0; P 1 0 0; P 0 1 0; P 1 1 0]) as [W [C _]]. destruct (table_of_wf [tri 0 1 2; tri 1 3 2]) as [W' _].
    split; [exact W| |exact W'| |].
    + exact C.
    + intros id p H. apply (t_get_list _ _ _ W) in H as Hin. cbn in Hin. decompose [or] Hin; subst; try contradiction; cbn in H; injection H as <-; reflexivity.
    + intros id e H. apply (t_get_list _ _ _ W') in H as Hin. cbn in Hin. decompose [or] Hin; subst; try contradiction; cbn in H; injection H as <-; (split; [reflexivity|]; split; [lra|]).
      * exists 0%Z, 1%Z, 2%Z. cbn. rewrite A1. repeat split; auto 10; lra.
      * exists 1%Z, 3%Z, 2%Z. cbn. rewrite A2. repeat split; auto 10; lra.
  - assert (S : share_edge plate_elems 0 1 /\ share_edge plate_elems 1 0).
    { split; [exists (tri 0 1 2), (tri 1 3 2), 1%Z, 2%Z|exists (tri 1 3 2), (tri 0 1 2), 1%Z, 2%Z]; cbn; repeat split; auto; lia. }
    intros x y Hx Hy. cbn in Hx, Hy. decompose [or] Hx; decompose [or] Hy; subst; try contradiction; try apply rt_refl; apply rt_step; apply S.
  - cbn. unfold area_of. cbn. rewrite A1, A2. lra.
Qed.
(** One tetrahedron: the matrix is declared symmetric and is not. *)
Definition tet_nodes : table pt := table_of [unit_tet 0; unit_tet 1; unit_tet 2; unit_tet 3].
Theorem C86_symmetry_refuted : forall E v, 0 < E -> 0 < v < 1 / 2 ->
  exists K, fem_structural 3 E v (fun _ => 1) tet_nodes (table_of [Element ET_TETRAHEDRON [0; 1; 2; 3]%Z []]) = Ok K /\ K 0%nat 8%nat = 0 /\ 0 < K 8%nat 0%nat.
Proof.
  intros E v HE Hv. eexists. split; [reflexivity|]. assert (H := C47_tetrahedron_symmetry_refuted E v HE Hv). cbv zeta in H.
  set (K := tet_stiffness _ _ _ _ _ _) in H. 
  match goal with |- ?A 0%nat 8%nat = 0 /\ _ => change A with (stamp [0;1;2;3;4;5;6;7;8;9;10;11]%nat K (fun _ _ => 0)) end.
  clearbody K. destruct H as (H1 & H2).
  assert (S : forall r c, (r < 12)%nat -> (c < 12)%nat -> stamp [0;1;2;3;4;5;6;7;8;9;10;11]%nat K (fun _ _ => 0) r c = K r c).
  { intros r c Hr Hc. rewrite <- (form_delta 12 (stamp _ K _) r c) by assumption. rewrite form_stamp by (repeat constructor; lia). rewrite form_zero. cbn [length].
    rewrite (form_ext_fields 12 K _ (delta r) _ (delta c)); [rewrite form_delta by assumption; ring| |]; intros i Hi; unfold at_positions; do 12 (destruct i as [|i]; [reflexivity|]); lia. }
  rewrite !S by lia. split; assumption.
Qed.
Print Assumptions C86_symmetry_refuted.
(** Triangles with three unknowns per node: entries outside the element matrix are read. *)
Theorem C86_shell_refuted : forall E v, fem_structural 3 E v (fun _ => 1) plate_nodes plate_elems = UB.
Proof. reflexivity. Qed.
Print Assumptions C86_shell_refuted.
(** A quadrilateral has no stiffness at all. *)
Theorem C86_quadrilateral_refuted : forall d E v, fem_structural d E v (fun _ => 1) plate_nodes (table_of [Element ET_QUADRILATERAL [0; 1; 3; 2]%Z []]) = Ok (fun _ _ => 0).
Proof. reflexivity. Qed.
Print Assumptions C86_quadrilateral_refuted.
(** A mesh of one tetrahedron meets the hypotheses of [C86_space]. *)
Example C86_space_case : space_mesh tet_nodes (table_of [Element ET_TETRAHEDRON [0; 1; 2; 3]%Z []]).
Proof.
  destruct (table_of_wf [unit_tet 0; unit_tet 1; unit_tet 2; unit_tet 3]) as [W [C _]]. destruct (table_of_wf [Element ET_TETRAHEDRON [0; 1; 2; 3]%Z []]) as [W' _].
  split; [exact W|exact C|exact W'|]. intros id e H. apply (t_get_list _ _ _ W') in H as Hin. cbn in Hin. destruct Hin as [<- | []]. cbn in H. injection H as <-. split; [reflexivity|].
  exists 0%Z, 1%Z, 2%Z, 3%Z. cbn [e_nodes]. change (place tet_nodes 0) with (unit_tet 0). change (place tet_nodes 1) with (unit_tet 1). change (place tet_nodes 2) with (unit_tet 2). change (place tet_nodes 3) with (unit_tet 3). rewrite unit_volume.
  cbn. repeat split; auto 10; lra.
Qed.

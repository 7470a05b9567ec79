(** C74: assembled finite-element systems. *)
From Coq Require Import Reals ZArith QArith Qreals List Lia Lra Bool.
From Verif Require Import Prelude ZMap Vec Mesh_Model Mesh_Spec Mesh_Proofs Int_Model Fem_Model Fem_Spec Fem_Proofs Fem_Props Fem_Cells Asm_Model.
Import ListNotations.
Open Scope R_scope.

(** ** Vocabulary *)
Definition node_at (nodes : table pt) (i : nat) : pt := match nth_error (t_ids nodes) i with Some id => match t_get nodes id with Ok p => p | _ => origin end | None => origin end.
(** The field with gradient g at the nodes, by position. *)
Definition sample (g : pt) (c : R) (nodes : table pt) : nat -> R := fun i => pdot g (node_at nodes i) + c.
Definition vertices (nodes : table pt) (e : element) : list pt := map (fun id => match t_get nodes id with Ok p => p | _ => origin end) (e_nodes e).
(** Elements that are not degenerate: beams of positive length, triangles of positive area, convex quadrilaterals, positively oriented tetrahedra,
    hexahedra and prisms whose map is not singular at the integration points. *)
Definition sound_shape (r3 : Q) (t : etype) (vs : list pt) : Prop :=
  match t, vs with
  | ET_BEAM, [a; b] => 0 < beam_length a b
  | ET_TRIANGLE, [a; b; c] => 0 < tri_area a b c
  | ET_QUADRILATERAL, [a; b; c; d] => convex a b c d
  | ET_TETRAHEDRON, [a; b; c; d] => 0 < tet_volume a b c d
  | ET_TRIANGULAR_PRISM, [a; b; c; d; e; f] => forall p, In p (prism_points r3) -> det3 (J_of 6 (prism_G p) [a; b; c; d; e; f]) <> 0
  | ET_HEXAHEDRON, [a; b; c; d; e; f; g; h] => forall p, In p hexa_points -> det3 (J_of 8 (hexa_G p) [a; b; c; d; e; f; g; h]) <> 0
  | _, _ => True
  end.
(** Areas and volumes, and gradients that lie in the element. *)
Definition content (t : etype) (vs : list pt) : R :=
  match t, vs with
  | ET_TRIANGLE, [a; b; c] => tri_area a b c
  | ET_QUADRILATERAL, [a; b; c; d] => quad_area a b c d
  | ET_TETRAHEDRON, [a; b; c; d] => tet_volume a b c d
  | _, _ => 0
  end.
Definition lies_in (g : pt) (t : etype) (vs : list pt) : Prop :=
  match t, vs with
  | ET_TRIANGLE, [a; b; c] | ET_QUADRILATERAL, [a; b; c; _] => pdot g (tri_normal a b c) = 0
  | _, _ => True
  end.
Definition simple_type (t : etype) : Prop := t = ET_TRIANGLE \/ t = ET_QUADRILATERAL \/ t = ET_TETRAHEDRON.
Record fem_mesh (r3 : Q) (nodes : table pt) (elems : table element) : Prop := {
  fm_nodes : wf_table nodes; fm_index : indexed nodes; fm_elems : wf_table elems;
  fm_refs : forall id e, t_get elems id = Ok e -> List.Forall (fun n => In n (t_ids nodes)) (e_nodes e);
  fm_shape : forall id e, t_get elems id = Ok e -> sound_shape r3 (e_type e) (vertices nodes e) }.
Definition elements (elems : table element) : list element := flat_map (fun id => match t_get elems id with Ok e => [e] | _ => [] end) (t_ids elems).
Definition lsum {A} (f : A -> R) (l : list A) : R := fold_right (fun x a => f x + a) 0 l.

(** ** Stamping *)
Definition delta (r : nat) : nat -> R := fun i => if Nat.eqb i r then 1 else 0.
Lemma rsum_pick n r f : (r < n)%nat -> rsum n (fun i => if Nat.eqb i r then f i else 0) = f r.
Proof.
  intros H. induction n as [|n IH]; [lia|]. cbn [rsum]. destruct (Nat.eqb_spec n r) as [->|Ne].
  - rewrite rsum_zero; [ring|]. intros i Hi. destruct (Nat.eqb_spec i r); [lia|reflexivity].
  - rewrite IH by lia. ring.
Qed.
Lemma form_add_at n r c x A v u : (r < n)%nat -> (c < n)%nat -> form n (add_at r c x A) v u = form n A v u + v r * x * u c.
Proof.
  intros Hr Hc. unfold form, add_at.
  rewrite (rsum_ext n _ (fun i => v i * rsum n (fun j => A i j * u j) + (if Nat.eqb i r then v i * (x * u c) else 0))).
  - rewrite rsum_add, rsum_pick by exact Hr. ring.
  - intros i Hi. destruct (Nat.eqb_spec i r) as [->|]; cbn [andb]; [|ring].
    rewrite (rsum_ext n _ (fun j => A r j * u j + (if Nat.eqb j c then x * u j else 0))).
    + rewrite rsum_add, rsum_pick by exact Hc. ring.
    + intros j Hj. destruct (Nat.eqb j c); ring.
Qed.
Lemma rsum_seq n f : rsum n f = lsum f (seq 0 n).
Proof.
  induction n as [|n IH]; [reflexivity|]. rewrite seq_S. cbn [rsum]. rewrite IH. unfold lsum. rewrite fold_right_app. cbn.
  assert (G : forall l a, fold_right (fun x y => f x + y) a l = fold_right (fun x y => f x + y) 0 l + a) by (induction l as [|y l IHl]; intros a; cbn; [ring|]; rewrite IHl; ring).
  rewrite (G _ (f n + 0)). ring.
Qed.
Lemma lsum_app {A} (f : A -> R) l l' : lsum f (l ++ l') = lsum f l + lsum f l'.
Proof. unfold lsum. induction l as [|x l IH]; cbn; [ring|]. rewrite IH. ring. Qed.
Lemma lsum_ext {A} (f g : A -> R) l : (forall x, In x l -> f x = g x) -> lsum f l = lsum g l.
Proof. unfold lsum. induction l as [|x l IH]; intros H; cbn; [reflexivity|]. rewrite (H x) by now left. f_equal. apply IH. intros y Hy. apply H. now right. Qed.
Lemma lsum_scale {A} c (f : A -> R) l : lsum (fun x => c * f x) l = c * lsum f l.
Proof. unfold lsum. induction l as [|x l IH]; cbn; [ring|]. rewrite IH. ring. Qed.
Lemma lsum_nonneg {A} (f : A -> R) l : (forall x, In x l -> 0 <= f x) -> 0 <= lsum f l.
Proof. unfold lsum. induction l as [|x l IH]; intros H; cbn; [lra|]. assert (0 <= f x) by (apply H; now left). assert (0 <= fold_right (fun x a => f x + a) 0 l) by (apply IH; intros; apply H; now right). lra. Qed.
Lemma lsum_map {A B} (f : B -> R) (g : A -> B) l : lsum f (map g l) = lsum (fun x => f (g x)) l.
Proof. unfold lsum. induction l as [|x l IH]; cbn; [reflexivity|]. now rewrite IH. Qed.
Lemma lsum_prod (f : nat * nat -> R) l l' : lsum f (list_prod l l') = lsum (fun i => lsum (fun j => f (i, j)) l') l.
Proof. induction l as [|x l IH]; cbn [list_prod]; [reflexivity|]. rewrite lsum_app, lsum_map, IH. reflexivity. Qed.
Definition at_positions (pos : list nat) (v : nat -> R) : nat -> R := fun i => v (nth i pos 0%nat).
Lemma form_stamp n pos K A v u : List.Forall (fun p => (p < n)%nat) pos -> form n (stamp pos K A) v u = form n A v u + form (length pos) K (at_positions pos v) (at_positions pos u).
Proof.
  intros Hp. assert (B : forall i, (i < length pos)%nat -> (nth i pos 0 < n)%nat) by (intros i Hi; rewrite List.Forall_forall in Hp; apply Hp, nth_In, Hi).
  unfold stamp. set (L := list_prod (seq 0 (length pos)) (seq 0 (length pos))).
  assert (HL : List.Forall (fun ij => (fst ij < length pos)%nat /\ (snd ij < length pos)%nat) L) by (apply List.Forall_forall; intros [i j] H; apply in_prod_iff in H; rewrite !in_seq in H; cbn; lia).
  assert (G : forall A, form n (fold_left (fun A ij => add_at (nth (fst ij) pos 0%nat) (nth (snd ij) pos 0%nat) (K (fst ij) (snd ij)) A) L A) v u = form n A v u + lsum (fun ij => v (nth (fst ij) pos 0%nat) * K (fst ij) (snd ij) * u (nth (snd ij) pos 0%nat)) L).
  { clearbody L. induction HL as [|[i j] L [Hi Hj] HL IH]; intros A'; cbn [fold_left lsum fold_right]; [unfold lsum; cbn; ring|]. rewrite IH. cbn [fst snd] in *. rewrite form_add_at by auto. unfold lsum. cbn. ring. }
  rewrite G. f_equal. unfold L. rewrite lsum_prod. unfold form. rewrite rsum_seq. apply lsum_ext. intros i _. rewrite rsum_seq, <- lsum_scale. apply lsum_ext. intros j _. unfold at_positions. cbn. ring.
Qed.
Lemma form_zero n v u : form n (fun _ _ => 0) v u = 0.
Proof. unfold form. apply rsum_zero. intros. rewrite rsum_zero; [ring|]. intros; ring. Qed.
Lemma form_delta n K r c : (r < n)%nat -> (c < n)%nat -> form n K (delta r) (delta c) = K r c.
Proof.
  intros Hr Hc. unfold form, delta. rewrite (rsum_ext n _ (fun i => if Nat.eqb i r then (fun i => K i c) i else 0)); [now apply (rsum_pick n r (fun i => K i c))|]. intros i _. destruct (Nat.eqb i r); [|ring].
  rewrite (rsum_ext n _ (fun j => if Nat.eqb j c then K i j else 0)); [rewrite rsum_pick by exact Hc; ring|]. intros j _. destruct (Nat.eqb j c); ring.
Qed.
Lemma form_delta_l n K r u : (r < n)%nat -> form n K (delta r) u = rsum n (fun j => K r j * u j).
Proof. intros Hr. unfold form, delta. rewrite (rsum_ext n _ (fun i => if Nat.eqb i r then rsum n (fun j => K i j * u j) else 0)); [now rewrite rsum_pick|]. intros i _. destruct (Nat.eqb i r); ring. Qed.
Lemma form_swap n K v u : symmetric n K -> form n K v u = form n K u v.
Proof.
  intros H. unfold form. rewrite (rsum_ext n _ (fun i => rsum n (fun j => v i * (K i j * u j)))) by (intros; now rewrite rsum_scale). rewrite rsum_swap. apply rsum_ext. intros j Hj. rewrite <- rsum_scale.
  apply rsum_ext. intros i Hi. rewrite (H i j Hi Hj). ring.
Qed.
Lemma form_const n K v c : kills_constants n K -> form n K v (fun _ => c) = 0.
Proof. intros H. unfold form. apply rsum_zero. intros i Hi. rewrite (H c i Hi). ring. Qed.

(** ** Elements *)
Lemma at_const pos c : at_positions pos (fun _ => c) = (fun _ => c). Proof. reflexivity. Qed.
Lemma laplacian_sound r3 t vs K : shape_laplacian r3 t vs = Some K -> sound_shape r3 t vs -> symmetric (length vs) K /\ kills_constants (length vs) K /\ dissipative (length vs) K.
Proof.
  destruct t; cbn [shape_laplacian]; try discriminate; repeat (destruct vs as [|? vs]; try discriminate); intros [= <-] H; cbn [sound_shape length] in *.
  - destruct (C46_beam_laplacian 1 1 p p0 H) as (A & B & C & _); try lra. auto.
  - destruct (C46_triangle_laplacian 1 p p0 p1 H) as (A & B & C & _); try lra. auto.
  - destruct (C46_quadrilateral 1 1 p p0 p1 p2 H) as (A & B & C & _); try lra. auto.
  - destruct (C46_tetrahedron_laplacian p p0 p1 p2 H) as (A & B & C & _). auto.
  - destruct (C46_prism r3 1 [p; p0; p1; p2; p3; p4]) as (A & B & C & _); try lra; auto.
  - destruct (C46_hexahedron 1 [p; p0; p1; p2; p3; p4; p5; p6]) as (A & B & C & _); try lra; auto.
Qed.
Lemma beam_mass_psd a b u : 0 <= form 2 (beam_ddt 1 1 a b) u u.
Proof.
  unfold beam_ddt. rewrite per_dt_pos by lra. rewrite !form_scale. apply Rmult_le_pos; [lra|]. assert (0 <= beam_length a b) by apply pnorm_nonneg. apply Rmult_le_pos; [lra|].
  unfold form, of_rows. cbn [rsum nth]. nra.
Qed.
Lemma tri_mass_psd a b c u : 0 <= form 3 (tri_ddt 1 a b c) u u.
Proof.
  unfold tri_ddt. rewrite per_dt_pos by lra. rewrite !form_scale. apply Rmult_le_pos; [lra|]. apply Rmult_le_pos; [unfold tri_area; assert (0 <= pnorm (tri_normal a b c)) by apply pnorm_nonneg; lra|].
  unfold form, of_rows. cbn [rsum nth]. set (x := u 0%nat). set (y := u 1%nat). set (z := u 2%nat).
  match goal with |- 0 <= ?e => replace e with (1 / 12 * (x * x + y * y + z * z + (x + y + z) * (x + y + z))) by field end.
  assert (0 <= (x + y + z) * (x + y + z)) by apply Rle_0_sqr. nra.
Qed.
Lemma tet_mass_psd a b c d u : 0 < tet_volume a b c d -> 0 <= form 4 (tet_ddt 1 a b c d) u u.
Proof.
  intros H. unfold tet_ddt. rewrite per_dt_pos by lra. rewrite !form_scale. apply Rmult_le_pos; [lra|]. apply Rmult_le_pos; [lra|].
  unfold form, of_rows. cbn [rsum nth]. set (x := u 0%nat). set (y := u 1%nat). set (z := u 2%nat). set (w := u 3%nat).
  match goal with |- 0 <= ?e => replace e with (1 / 20 * (x * x + y * y + z * z + w * w + (x + y + z + w) * (x + y + z + w))) by field end.
  assert (0 <= (x + y + z + w) * (x + y + z + w)) by apply Rle_0_sqr. nra.
Qed.
Lemma ddt_sound r3 t vs K : shape_ddt t vs = Some K -> sound_shape r3 t vs -> symmetric (length vs) K /\ (forall u, 0 <= form (length vs) K u u).
Proof.
  destruct t; cbn [shape_ddt]; try discriminate; repeat (destruct vs as [|? vs]; try discriminate); intros [= <-] H; cbn [sound_shape length] in *.
  - split; [apply (C46_beam_mass 1 1 p p0 (fun _ => 0) (fun _ => 0)); lra|intros; apply beam_mass_psd].
  - split; [apply (C46_triangle_mass 1 p p0 p1 (fun _ => 0) (fun _ => 0)); lra|intros; apply tri_mass_psd].
  - destruct (C46_quadrilateral 1 1 p p0 p1 p2 H) as (_ & _ & _ & _ & A & B & _); try lra. auto.
  - split; [apply (C46_tetrahedron_mass 1 p p0 p1 p2 (fun _ => 0) (fun _ => 0)); lra|intros; now apply tet_mass_psd].
  - destruct (C46_hexahedron 1 [p; p0; p1; p2; p3; p4; p5; p6]) as (_ & _ & _ & _ & A & B & _); try lra; auto.
Qed.
Lemma content_laplacian r3 t vs g h c c' K : simple_type t -> sound_shape r3 t vs -> lies_in g t vs -> shape_laplacian r3 t vs = Some K ->
  form (length vs) K (linear g c vs) (linear h c' vs) = - pdot g h * content t vs.
Proof.
  intros [->|[->| ->]]; cbn [shape_laplacian]; repeat (destruct vs as [|? vs]; try discriminate); intros H L [= <-]; cbn [sound_shape lies_in length content] in *.
  - destruct (C46_triangle_laplacian 1 p p0 p1 H) as (_ & _ & _ & _ & E); [lra|]. rewrite E by exact L. ring.
  - destruct (C46_quadrilateral 1 1 p p0 p1 p2 H) as (_ & _ & _ & E & _); try lra. rewrite E by exact L. ring.
  - destruct (C46_tetrahedron_laplacian p p0 p1 p2 H) as (_ & _ & _ & _ & E). rewrite E. ring.
Qed.
Lemma content_ddt r3 t vs K : simple_type t -> sound_shape r3 t vs -> shape_ddt t vs = Some K -> total (length vs) K = content t vs.
Proof.
  intros [->|[->| ->]]; cbn [shape_ddt]; repeat (destruct vs as [|? vs]; try discriminate); intros H [= <-]; cbn [sound_shape length content] in *.
  - unfold tri_ddt. rewrite per_dt_pos by lra. rewrite !scale_total. unfold total, of_rows. cbn [rsum nth]. field.
  - destruct (C46_quadrilateral 1 1 p p0 p1 p2 H) as (_ & _ & _ & _ & _ & _ & E); try lra.
  - unfold tet_ddt. rewrite per_dt_pos by lra. rewrite !scale_total. unfold total, of_rows. cbn [rsum nth]. field.
Qed.

(** ** Lookups *)
Lemma mapM_get (nodes : table pt) l : wf_table nodes -> List.Forall (fun n => In n (t_ids nodes)) l ->
  mapM (t_get nodes) l = Ok (map (fun id => match t_get nodes id with Ok p => p | _ => origin end) l).
Proof.
  intros W F. induction F as [|x l Hx F IH]; [reflexivity|]. cbn [mapM map]. destruct (wf_get nodes x W Hx) as [p E]. rewrite E. cbn [bind]. rewrite IH. reflexivity.
Qed.
Definition pos_of (nodes : table pt) (id : Z) : nat := match t_index nodes id with Ok i => Z.to_nat i | _ => 0%nat end.
Lemma index_in (nodes : table pt) id : indexed nodes -> In id (t_ids nodes) -> exists i, (i < length (t_ids nodes))%nat /\ t_index nodes id = Ok (Z.of_nat i) /\ nth_error (t_ids nodes) i = Some id.
Proof.
  intros [I _] H. apply In_nth_error in H. destruct H as [i Hi]. exists i. assert (L : (i < length (t_ids nodes))%nat) by (apply nth_error_Some; congruence). split; [exact L|]. split; [|exact Hi]. apply I. unfold t_id. rewrite vec_at_nat, Hi. reflexivity.
Qed.
Lemma positions_ok (nodes : table pt) l : indexed nodes -> List.Forall (fun n => In n (t_ids nodes)) l ->
  positions nodes l = Ok (map (pos_of nodes) l) /\ List.Forall (fun p => (p < length (t_ids nodes))%nat) (map (pos_of nodes) l).
Proof.
  intros I F. assert (M : mapM (t_index nodes) l = Ok (map (fun id => Z.of_nat (pos_of nodes id)) l) /\ List.Forall (fun p => (p < length (t_ids nodes))%nat) (map (pos_of nodes) l)).
  { induction F as [|x l Hx F [IH IF]]; [split; [reflexivity|constructor]|]. destruct (index_in nodes x I Hx) as (i & Li & Ei & _). cbn [mapM map]. unfold pos_of at 1 3. rewrite Ei. cbn [bind]. rewrite IH. cbn [bind]. rewrite Nat2Z.id. split; [reflexivity|constructor; assumption]. }
  destruct M as [M MF]. split; [|exact MF]. unfold positions. rewrite M. cbn [bind].
  assert (B : forallb (fun i => (0 <=? i)%Z && (i <? t_size nodes)%Z)%bool (map (fun id => Z.of_nat (pos_of nodes id)) l) = true).
  { apply forallb_forall. intros z Hz. apply in_map_iff in Hz. destruct Hz as (id & <- & Hid). rewrite List.Forall_forall in MF. assert (pos_of nodes id < length (t_ids nodes))%nat by (apply MF, in_map, Hid). unfold t_size, zlen. apply andb_true_iff. rewrite Z.leb_le, Z.ltb_lt. lia. }
  rewrite B, map_map. f_equal. apply map_ext. intros. apply Nat2Z.id.
Qed.
Lemma at_sample (nodes : table pt) e g c : indexed nodes -> List.Forall (fun n => In n (t_ids nodes)) (e_nodes e) -> forall i, (i < length (e_nodes e))%nat ->
  at_positions (map (pos_of nodes) (e_nodes e)) (sample g c nodes) i = linear g c (vertices nodes e) i.
Proof.
  intros I F i Hi. unfold at_positions, sample, linear, vertices. destruct (nth_error (e_nodes e) i) as [id|] eqn:E; [|apply nth_error_None in E; lia].
  assert (In id (t_ids nodes)) by (rewrite List.Forall_forall in F; apply F; eapply nth_error_In; eauto).
  rewrite (nth_error_nth (map (pos_of nodes) (e_nodes e)) i 0%nat (x := pos_of nodes id)) by (now apply map_nth_error).
  rewrite (nth_error_nth (map _ (e_nodes e)) i origin (x := match t_get nodes id with Ok p => p | _ => origin end)) by (now apply (map_nth_error (fun id => match t_get nodes id with Ok p => p | _ => origin end))).
  destruct (index_in nodes id I H) as (k & _ & Ek & Nk). unfold pos_of. rewrite Ek, Nat2Z.id. unfold node_at. rewrite Nk. reflexivity.
Qed.
Lemma form_ext_fields n K v v' u u' : (forall i, (i < n)%nat -> v i = v' i) -> (forall i, (i < n)%nat -> u i = u' i) -> form n K v u = form n K v' u'.
Proof. intros H H'. unfold form. apply rsum_ext. intros i Hi. rewrite H by exact Hi. f_equal. apply rsum_ext. intros j Hj. now rewrite H'. Qed.

(** ** The assembled matrix as a sum over elements *)
Lemma branch_laplacian r3 t vs : has_branch true t (length vs) = true -> exists K, shape_laplacian r3 t vs = Some K.
Proof. destruct t; cbn; try discriminate; do 9 (destruct vs as [|? vs]; cbn; try discriminate; eauto). Qed.
Lemma branch_ddt t vs : has_branch false t (length vs) = true -> exists K, shape_ddt t vs = Some K.
Proof. destruct t; cbn; try discriminate; do 9 (destruct vs as [|? vs]; cbn; try discriminate; eauto). Qed.
Lemma branch_none r3 t vs : has_branch true t (length vs) = false -> shape_laplacian r3 t vs = None.
Proof. destruct t; cbn; try reflexivity; do 9 (destruct vs as [|? vs]; cbn; try discriminate; try reflexivity). Qed.
Lemma branch_ddt_none t vs : has_branch false t (length vs) = false -> shape_ddt t vs = None.
Proof. destruct t; cbn; try reflexivity; do 9 (destruct vs as [|? vs]; cbn; try discriminate; try reflexivity). Qed.
Definition part (shape : etype -> list pt -> option rmat) (nodes : table pt) (v u : nat -> R) (e : element) : R :=
  match shape (e_type e) (vertices nodes e) with
  | Some K => let pos := map (pos_of nodes) (e_nodes e) in form (length (e_nodes e)) K (at_positions pos v) (at_positions pos u)
  | None => 0
  end.
Section Assemble.
Context (r3 : Q) (nodes : table pt) (elems : table element) (M : fem_mesh r3 nodes elems).
Let n := length (t_ids nodes).
Let es (ids : list Z) := flat_map (fun id => match t_get elems id with Ok e => [e] | _ => [] end) ids.
Lemma laplacian_sum : exists L, fem_laplacian r3 nodes elems = Ok L /\ forall v u, form n L v u = lsum (part (shape_laplacian r3) nodes v u) (elements elems).
Proof.
  destruct M as [W I WE R _]. unfold fem_laplacian.
  rewrite (foldM_positions elems (fun A id e => if has_branch true (e_type e) (length (e_nodes e)) then vs <- mapM (t_get nodes) (e_nodes e) ;; pos <- positions nodes (e_nodes e) ;; match shape_laplacian r3 (e_type e) vs with Some K => Ok (stamp pos K A) | None => Ok A end else Ok A)) by exact WE.
  apply (foldM_invariant _ (fun done L => forall v u, form n L v u = lsum (part (shape_laplacian r3) nodes v u) (es done))).
  - intros v u. apply form_zero.
  - intros done id rest A E IH. destruct (wf_get elems id WE) as [e He]; [rewrite E; apply in_or_app; right; now left|]. rewrite He. cbn [bind].
    assert (ES : es (done ++ [id]) = es done ++ [e]) by (unfold es; rewrite flat_map_app; cbn; rewrite He; reflexivity). rewrite ES. specialize (R id e He).
    destruct (has_branch true (e_type e) (length (e_nodes e))) eqn:HB.
    + rewrite (mapM_get nodes _ W R). cbn [bind]. destruct (positions_ok nodes _ I R) as [-> PF]. cbn [bind]. fold (vertices nodes e).
      destruct (branch_laplacian r3 (e_type e) (vertices nodes e)) as [K EK]; [unfold vertices; now rewrite map_length|]. rewrite EK. eexists. split; [reflexivity|].
      intros v u. rewrite form_stamp by exact PF. rewrite IH, lsum_app. unfold lsum at 3. cbn [fold_right]. unfold part at 3. rewrite EK. cbv zeta. rewrite map_length. ring.
    + exists A. split; [reflexivity|]. intros v u. rewrite IH, lsum_app. unfold lsum at 3. cbn [fold_right]. unfold part at 3. rewrite (branch_none r3); [ring|]. unfold vertices. now rewrite map_length.
Qed.
Lemma elements_in e : In e (elements elems) -> exists id, t_get elems id = Ok e.
Proof. unfold elements. rewrite in_flat_map. intros (id & _ & H). exists id. destruct (t_get elems id); cbn in H; [destruct H as [<-|[]]; reflexivity|destruct H|destruct H]. Qed.
Lemma part_length e : length (vertices nodes e) = length (e_nodes e). Proof. unfold vertices. apply map_length. Qed.
End Assemble.

(** ** Diffusion *)
(** The assembled laplacian of every mesh of sound elements (any mixture of the six types, any ids): the call returns, the matrix is symmetric,
    vanishes on constants and never has positive energy. *)
Theorem C74_laplacian : forall r3 nodes elems, fem_mesh r3 nodes elems ->
  exists L, fem_laplacian r3 nodes elems = Ok L /\
    let n := length (t_ids nodes) in symmetric n L /\ kills_constants n L /\ dissipative n L.
Proof.
  intros r3 nodes elems M. destruct (laplacian_sum r3 nodes elems M) as (L & E & F). exists L. split; [exact E|]. cbv zeta. set (n := length (t_ids nodes)) in *.
  assert (S : forall e, In e (elements elems) -> forall K, shape_laplacian r3 (e_type e) (vertices nodes e) = Some K -> symmetric (length (e_nodes e)) K /\ kills_constants (length (e_nodes e)) K /\ dissipative (length (e_nodes e)) K).
  { intros e He K HK. destruct (elements_in elems e He) as [id Hid]. rewrite <- (part_length nodes e). apply (laplacian_sound r3 (e_type e)); [exact HK|]. apply (fm_shape _ _ _ M id e Hid). }
  repeat split.
  - intros i j Hi Hj. rewrite <- (form_delta n L i j), <- (form_delta n L j i), !F by assumption. apply lsum_ext. intros e He. unfold part. destruct (shape_laplacian r3 (e_type e) (vertices nodes e)) as [K|] eqn:EK; [|reflexivity]. apply form_swap. now apply S.
  - intros c i Hi. rewrite <- (form_delta_l n L i (fun _ => c)), F by exact Hi. rewrite (lsum_ext _ (fun e => 0 * 0)); [rewrite lsum_scale; ring|]. intros e He. unfold part. destruct (shape_laplacian r3 (e_type e) (vertices nodes e)) as [K|] eqn:EK; [|ring]. rewrite at_const. rewrite form_const; [ring|]. now apply S.
  - intros u. rewrite F. assert (0 <= lsum (fun e => -1 * part (shape_laplacian r3) nodes u u e) (elements elems)).
    { apply lsum_nonneg. intros e He. unfold part. destruct (shape_laplacian r3 (e_type e) (vertices nodes e)) as [K|] eqn:EK; [|lra]. destruct (S e He K EK) as (_ & _ & D). specialize (D (at_positions (map (pos_of nodes) (e_nodes e)) u)). lra. }
    rewrite lsum_scale in H. lra.
Qed.
Print Assumptions C74_laplacian.
(** Linear fields on meshes of triangles, quadrilaterals and tetrahedra: minus the product of the gradients times the area or volume of the mesh. *)
Theorem C74_linear_fields : forall r3 nodes elems g h c c', fem_mesh r3 nodes elems ->
  (forall id e, t_get elems id = Ok e -> simple_type (e_type e) /\ has_branch true (e_type e) (length (e_nodes e)) = true /\ lies_in g (e_type e) (vertices nodes e)) ->
  exists L, fem_laplacian r3 nodes elems = Ok L /\
    form (length (t_ids nodes)) L (sample g c nodes) (sample h c' nodes) = - pdot g h * lsum (fun e => content (e_type e) (vertices nodes e)) (elements elems).
Proof.
  intros r3 nodes elems g h c c' M T. destruct (laplacian_sum r3 nodes elems M) as (L & E & F). exists L. split; [exact E|]. rewrite F, <- lsum_scale. apply lsum_ext. intros e He.
  destruct (elements_in elems e He) as [id Hid]. destruct (T id e Hid) as (St & HB & Li). unfold part. destruct (branch_laplacian r3 (e_type e) (vertices nodes e)) as [K EK]; [now rewrite part_length|]. rewrite EK. cbv zeta.
  rewrite (form_ext_fields _ _ _ (linear g c (vertices nodes e)) _ (linear h c' (vertices nodes e))).
  - rewrite <- (part_length nodes e). apply (content_laplacian r3); [exact St|apply (fm_shape _ _ _ M id e Hid)|exact Li|exact EK].
  - apply at_sample; [apply M|apply (fm_refs _ _ _ M id e Hid)].
  - apply at_sample; [apply M|apply (fm_refs _ _ _ M id e Hid)].
Qed.
Print Assumptions C74_linear_fields.

(** ** Storage and the implicit step *)
(** Ids are positions: what the code assumes. *)
Definition ids_are_positions (nodes : table pt) (elems : table element) : Prop :=
  t_ids nodes = zrange (length (t_ids nodes)) /\ t_ids elems = zrange (length (t_ids elems)).
Lemma ddt_sum r3 nodes elems u0 : fem_mesh r3 nodes elems -> ids_are_positions nodes elems ->
  exists A, fem_ddt nodes elems u0 = Ok (A, fun i => rsum (length (t_ids nodes)) (fun j => A i j * u0 j)) /\ forall v u, form (length (t_ids nodes)) A v u = lsum (part shape_ddt nodes v u) (elements elems).
Proof.
  intros M [PN PE]. set (n := length (t_ids nodes)). destruct M as [W I WE R _]. unfold fem_ddt. rewrite <- PE.
  destruct (foldM_invariant (fun A el => e <- t_get elems el ;; (if has_branch false (e_type e) (length (e_nodes e)) then vs <- mapM (t_get nodes) (e_nodes e) ;; pos <- positions nodes (e_nodes e) ;; (if forallb (fun i => (0 <=? i)%Z && (i <? t_size nodes)%Z)%bool (e_nodes e) then match shape_ddt (e_type e) vs with Some K => Ok (stamp pos K A) | None => Ok A end else UB) else Ok A))
     (fun done A => forall v u, form n A v u = lsum (part shape_ddt nodes v u) (flat_map (fun id => match t_get elems id with Ok e => [e] | _ => [] end) done)) (t_ids elems) (fun _ _ => 0)) as (A & EA & FA).
  - intros v u. apply form_zero.
  - intros done id rest A E IH. destruct (wf_get elems id WE) as [e He]; [rewrite E; apply in_or_app; right; now left|]. rewrite He. cbn [bind].
    specialize (R id e He). assert (ES : flat_map (fun id => match t_get elems id with Ok e => [e] | _ => [] end) (done ++ [id]) = flat_map (fun id => match t_get elems id with Ok e => [e] | _ => [] end) done ++ [e]) by (rewrite flat_map_app; cbn; rewrite He; reflexivity). rewrite ES.
    destruct (has_branch false (e_type e) (length (e_nodes e))) eqn:HB.
    + rewrite (mapM_get nodes _ W R). cbn [bind]. destruct (positions_ok nodes _ I R) as [-> PF]. cbn [bind]. fold (vertices nodes e).
      assert (B : forallb (fun i => (0 <=? i)%Z && (i <? t_size nodes)%Z)%bool (e_nodes e) = true).
      { apply forallb_forall. intros z Hz. rewrite List.Forall_forall in R. specialize (R z Hz). rewrite PN in R. apply zrange_in in R. unfold t_size, zlen. apply andb_true_iff. rewrite Z.leb_le, Z.ltb_lt. exact R. }
      rewrite B. destruct (branch_ddt (e_type e) (vertices nodes e)) as [K EK]; [now rewrite part_length|]. rewrite EK. eexists. split; [reflexivity|].
      intros v u. rewrite form_stamp by exact PF. rewrite IH, lsum_app. unfold lsum at 3. cbn [fold_right]. unfold part at 3. rewrite EK. cbv zeta. rewrite map_length. ring.
    + exists A. split; [reflexivity|]. intros v u. rewrite IH, lsum_app. unfold lsum at 3. cbn [fold_right]. unfold part at 3. rewrite branch_ddt_none; [ring|]. now rewrite part_length.
  - exists A. rewrite EA. cbn [bind]. split; [reflexivity|exact FA].
Qed.
Theorem C74_ddt : forall r3 nodes elems u, fem_mesh r3 nodes elems -> ids_are_positions nodes elems ->
  exists M b, fem_ddt nodes elems u = Ok (M, b) /\
    let n := length (t_ids nodes) in
    (forall i, b i = rsum n (fun j => M i j * u j)) /\ symmetric n M /\ (forall w, 0 <= form n M w w) /\
    ((forall id e, t_get elems id = Ok e -> simple_type (e_type e) /\ has_branch true (e_type e) (length (e_nodes e)) = true) ->
       total n M = lsum (fun e => content (e_type e) (vertices nodes e)) (elements elems)).
Proof.
  intros r3 nodes elems u M P. destruct (ddt_sum r3 nodes elems u M P) as (A & E & F). exists A. eexists. split; [exact E|]. cbv zeta. set (n := length (t_ids nodes)) in *.
  assert (S : forall e, In e (elements elems) -> forall K, shape_ddt (e_type e) (vertices nodes e) = Some K -> symmetric (length (e_nodes e)) K /\ forall w, 0 <= form (length (e_nodes e)) K w w).
  { intros e He K HK. destruct (elements_in elems e He) as [id Hid]. rewrite <- (part_length nodes e). apply (ddt_sound r3 (e_type e)); [exact HK|]. apply (fm_shape _ _ _ M id e Hid). }
  split; [reflexivity|]. split; [|split].
  - intros i j Hi Hj. rewrite <- (form_delta n A i j), <- (form_delta n A j i), !F by assumption. apply lsum_ext. intros e He. unfold part. destruct (shape_ddt (e_type e) (vertices nodes e)) as [K|] eqn:EK; [|reflexivity]. apply form_swap. now apply S.
  - intros w. rewrite F. apply lsum_nonneg. intros e He. unfold part. destruct (shape_ddt (e_type e) (vertices nodes e)) as [K|] eqn:EK; [|lra]. now apply S.
  - intros T. rewrite <- form_ones, F. apply lsum_ext. intros e He. destruct (elements_in elems e He) as [id Hid]. destruct (T id e Hid) as (St & HB). unfold part.
    assert (HB' : has_branch false (e_type e) (length (e_nodes e)) = true) by (destruct St as [Et|[Et|Et]]; rewrite Et in *; exact HB).
    destruct (branch_ddt (e_type e) (vertices nodes e)) as [K EK]; [now rewrite part_length|]. rewrite EK. cbv zeta. rewrite at_const. rewrite <- (part_length nodes e), form_ones. apply (content_ddt r3); [exact St|apply (fm_shape _ _ _ M id e Hid)|exact EK].
Qed.
Print Assumptions C74_ddt.
(** One implicit step of du/dt = laplacian u on any such mesh, with no boundary conditions: any solution keeps the total amount, and its energy
    is not larger than before. *)
Theorem C74_implicit_step : forall r3 nodes elems u u', fem_mesh r3 nodes elems -> ids_are_positions nodes elems ->
  exists M b L, fem_ddt nodes elems u = Ok (M, b) /\ fem_laplacian r3 nodes elems = Ok L /\
    let n := length (t_ids nodes) in
    ((forall i, (i < n)%nat -> rsum n (fun j => (M i j - L i j) * u' j) = b i) ->
       rsum n (fun i => rsum n (fun j => M i j * u' j)) = rsum n (fun i => rsum n (fun j => M i j * u j)) /\
       form n M u' u' <= form n M u u).
Proof.
  intros r3 nodes elems u u' Me P. destruct (C74_ddt r3 nodes elems u Me P) as (M & b & EM & Hb & Sy & Psd & _). destruct (C74_laplacian r3 nodes elems Me) as (L & EL & SyL & Kc & Di).
  exists M, b, L. split; [exact EM|]. split; [exact EL|]. cbv zeta. set (n := length (t_ids nodes)) in *. intros Sol.
  assert (Row : forall i, (i < n)%nat -> rsum n (fun j => M i j * u' j) - rsum n (fun j => L i j * u' j) = rsum n (fun j => M i j * u j)).
  { intros i Hi. rewrite <- Hb, <- (Sol i Hi). rewrite (rsum_ext n (fun j => (M i j - L i j) * u' j) (fun j => M i j * u' j + - (L i j * u' j))) by (intros; ring). rewrite rsum_add, rsum_opp. ring. }
  split.
  - assert (Z : rsum n (fun i => rsum n (fun j => L i j * u' j)) = 0).
    { transitivity (form n L (fun _ => 1) u'); [unfold form; apply rsum_ext; intros; ring|]. rewrite form_swap by exact SyL. now apply form_const. }
    transitivity (rsum n (fun i => rsum n (fun j => M i j * u' j)) - rsum n (fun i => rsum n (fun j => L i j * u' j))); [rewrite Z; ring|].
    rewrite (rsum_ext n (fun i => rsum n (fun j => M i j * u j)) (fun i => rsum n (fun j => M i j * u' j) + - rsum n (fun j => L i j * u' j))) by (intros i Hi; rewrite <- (Row i Hi); ring). rewrite rsum_add, rsum_opp. ring.
  - assert (W : form n M u' u' - form n L u' u' = form n M u' u).
    { unfold form. rewrite (rsum_ext n (fun i => u' i * rsum n (fun j => M i j * u j)) (fun i => u' i * rsum n (fun j => M i j * u' j) + - (u' i * rsum n (fun j => L i j * u' j)))) by (intros i Hi; rewrite <- (Row i Hi); ring). rewrite rsum_add, rsum_opp. ring. }
    specialize (Di u'). 
    assert (Q : 0 <= form n M u' u' - 2 * form n M u' u + form n M u u).
    { pose proof (Psd (fun i => u' i - u i)) as H. assert (X : form n M (fun i => u' i - u i) (fun i => u' i - u i) = form n M u' u' - 2 * form n M u' u + form n M u u); [|lra].
      assert (Bl : forall w, form n M w (fun i => u' i - u i) = form n M w u' - form n M w u).
      { intros w. unfold form. rewrite (rsum_ext n (fun i => w i * rsum n (fun j => M i j * (u' j - u j))) (fun i => w i * rsum n (fun j => M i j * u' j) + - (w i * rsum n (fun j => M i j * u j)))); [rewrite rsum_add, rsum_opp; ring|].
        intros i _. rewrite (rsum_ext n (fun j => M i j * (u' j - u j)) (fun j => M i j * u' j + - (M i j * u j))) by (intros; ring). rewrite rsum_add, rsum_opp. ring. }
      rewrite Bl, !(form_swap n M (fun i => u' i - u i)) by exact Sy. rewrite !Bl, (form_swap n M u u') by exact Sy. ring. }
    lra.
Qed.
Print Assumptions C74_implicit_step.

(** ** Concrete meshes *)
Definition table_of {A} (l : list A) : table A := fold_left (fun t v => t_add t (t_next t) v) l t_empty.
Lemma table_of_wf {A} (l : list A) : wf_table (table_of l) /\ compact (table_of l).
Proof.
  unfold table_of. assert (G : forall t : table A, wf_table t /\ compact t -> wf_table (fold_left (fun t v => t_add t (t_next t) v) l t) /\ compact (fold_left (fun t v => t_add t (t_next t) v) l t)).
  { induction l as [|x l IH]; intros t Ht; cbn; [exact Ht|]. apply IH. destruct Ht as [W C]. split; [now apply t_add_next_wf|]. apply t_add_compact; auto. destruct W as (_ & Hs & Hk). destruct (t_next_fresh t Hs) as [Hf _]. rewrite Hk. congruence. }
  apply G. split.
  - split; [constructor|]. split; [constructor|]. intros id. cbn. split; [intros []|congruence].
  - split; [split|reflexivity]; [|reflexivity]. intros i id H. apply vec_at_Ok in H. destruct H as [_ H]. destruct (Z.to_nat i); discriminate.
Qed.
Definition square_nodes : table pt := table_of [P 0 0 0; P 1 0 0; P 0 1 0; P 1 1 0].
Definition tri (a b c : Z) : element := Element ET_TRIANGLE [a; b; c] [].
Definition beam (a b : Z) : element := Element ET_BEAM [a; b] [].
Definition square_elems : table element := table_of [tri 0 1 2; tri 1 3 2; beam 0 3].
Lemma half a b c : pdot (tri_normal a b c) (tri_normal a b c) = 1 -> tri_area a b c = 1 / 2.
Proof. intros H. unfold tri_area. rewrite (pnorm_unique _ 1); [ring|lra|lra]. Qed.
Lemma t_get_list {A} (t : table A) id v : wf_table t -> t_get t id = Ok v -> In id (t_ids t). Proof. apply wf_get_in. Qed.
Lemma square_mesh r3 : fem_mesh r3 square_nodes square_elems.
Proof.
  pose proof (table_of_wf [P 0 0 0; P 1 0 0; P 0 1 0; P 1 1 0]) as [WN [IN _]]. pose proof (table_of_wf [tri 0 1 2; tri 1 3 2; beam 0 3]) as [WE _].
  assert (C : forall id e, t_get square_elems id = Ok e -> e = tri 0 1 2 \/ e = tri 1 3 2 \/ e = beam 0 3).
  { intros id e H. assert (Hi : In id (t_ids square_elems)) by (eapply wf_get_in; eauto). cbn in Hi. destruct Hi as [<-|[<-|[<-|[]]]]; cbn in H; injection H as <-; auto. }
  split; [exact WN|exact IN|exact WE| |].
  - intros id e H. destruct (C id e H) as [->|[->| ->]]; cbn; repeat (apply List.Forall_cons; [cbn; tauto|]); apply List.Forall_nil.
  - intros id e H. destruct (C id e H) as [->|[->| ->]]; cbn.
    + rewrite half; [lra|]. unfold pdot, tri_normal, pcross, psub. cbn. ring.
    + rewrite half; [lra|]. unfold pdot, tri_normal, pcross, psub. cbn. ring.
    + unfold beam_length, pnorm, pdot, psub. cbn. apply sqrt_lt_R0. lra.
Qed.
(** The hypotheses of the theorems above hold for a square of two triangles with a beam across. *)
Example C74_case : fem_mesh 0 square_nodes square_elems /\ ids_are_positions square_nodes square_elems /\
  fem_mesh 0 square_nodes (table_of [tri 0 1 2; tri 1 3 2]) /\
  lsum (fun e => content (e_type e) (vertices square_nodes e)) (elements (table_of [tri 0 1 2; tri 1 3 2])) = 1.
Proof.
  split; [apply square_mesh|]. split; [split; reflexivity|]. split.
  - pose proof (square_mesh 0) as M. pose proof (table_of_wf [tri 0 1 2; tri 1 3 2]) as [WE _].
    assert (C : forall id e, t_get (table_of [tri 0 1 2; tri 1 3 2]) id = Ok e -> t_get square_elems id = Ok e).
    { intros id e H. assert (Hi : In id (t_ids (table_of [tri 0 1 2; tri 1 3 2]))) by (eapply wf_get_in; eauto). cbn in Hi. destruct Hi as [<-|[<-|[]]]; cbn in H; injection H as <-; reflexivity. }
    destruct M as [a b c d f]. split; auto; intros; [eapply d|eapply f]; eauto.
  - cbn. rewrite !half; [lra| |]; unfold pdot, tri_normal, pcross, psub; cbn; ring.
Qed.
(** The same mesh with ids from 1: the storage term throws (elements from 1) or writes outside the right-hand side (nodes from 1); the
    laplacian accepts both. *)
Definition from1 {A} (l : list A) : table A := fst (fold_left (fun ti v => (t_add (fst ti) (snd ti) v, (snd ti + 1)%Z)) l (t_empty, 1%Z)).
Theorem C74_ids_from_one_refuted :
  let nodes := table_of [P 0 0 0; P 1 0 0] in let nodes1 := from1 [P 0 0 0; P 1 0 0] in
  (forall u, fem_ddt nodes (from1 [beam 0 1]) u = Throw) /\ (forall u, fem_ddt nodes1 (table_of [beam 1 2]) u = UB) /\
  (exists L, fem_laplacian 0 nodes (from1 [beam 0 1]) = Ok L) /\ (exists L, fem_laplacian 0 nodes1 (table_of [beam 1 2]) = Ok L) /\
  (exists Mb, fem_ddt nodes (table_of [beam 0 1]) (fun _ => 0) = Ok Mb).
Proof. cbv zeta. split; [reflexivity|]. split; [reflexivity|]. split; [eexists; reflexivity|]. split; eexists; reflexivity. Qed.
Print Assumptions C74_ids_from_one_refuted.
(** A mesh of prisms has diffusion but no storage: the storage matrix is zero. *)
Theorem C74_prism_storage_refuted :
  let nodes := table_of [P 0 0 0; P 1 0 0; P 0 1 0; P 0 0 1; P 1 0 1; P 0 1 1] in
  let elems := table_of [Element ET_TRIANGULAR_PRISM [0; 1; 2; 3; 4; 5]%Z []] in
  (exists L, fem_laplacian 0 nodes elems = Ok L) /\ (forall u, exists b, fem_ddt nodes elems u = Ok (fun _ _ => 0, b)).
Proof. cbv zeta. split; [eexists; reflexivity|]. intros u. eexists. reflexivity. Qed.
Print Assumptions C74_prism_storage_refuted.

(** ** C75: convection *)
Definition weigh (n : nat) (w s : nat -> R) : R := rsum n (fun i => w i * s i).
Lemma weigh_add n p x w s : (p < n)%nat -> weigh n w (add_vec p x s) = weigh n w s + w p * x.
Proof.
  intros H. unfold weigh, add_vec. rewrite (rsum_ext n _ (fun i => w i * s i + (if Nat.eqb i p then w i * x else 0))) by (intros i _; destruct (Nat.eqb i p); ring). rewrite rsum_add, rsum_pick by exact H. reflexivity.
Qed.
Lemma weigh_stamp n pos s b w : List.Forall (fun p => (p < n)%nat) pos -> weigh n w (stamp_vec pos s b) = weigh n w b + weigh (length pos) (at_positions pos w) s.
Proof.
  intros Hp. assert (B : forall i, In i (seq 0 (length pos)) -> (nth i pos 0 < n)%nat) by (intros i Hi; apply in_seq in Hi; rewrite List.Forall_forall in Hp; apply Hp, nth_In; lia).
  unfold stamp_vec. unfold weigh at 3. rewrite rsum_seq. revert b B. generalize (seq 0 (length pos)) as l. induction l as [|i l IH]; intros b B; cbn [fold_left lsum fold_right]; [unfold lsum; cbn; ring|].
  rewrite IH by (intros; apply B; now right). rewrite weigh_add by (apply B; now left). unfold lsum. cbn. unfold at_positions at 2. ring.
Qed.
Lemma weigh_zero n w : weigh n w (fun _ => 0) = 0. Proof. unfold weigh. apply rsum_zero. intros; ring. Qed.
(** The element is balanced at the ambient temperature. *)
Definition balanced (n : nat) (T : R) (Ks : rmat * (nat -> R)) : Prop := forall w, form n (fst Ks) w (fun _ => T) = weigh n w (snd Ks).
Lemma thermal_balanced r3 t vs bc T Ks : sound_shape r3 t vs -> (forall i h Ti, bc i = Some (h, Ti) -> Ti = T) -> shape_thermal r3 t vs bc = Some Ks -> balanced (length vs) T Ks.
Proof.
  intros Hs Hb E. unfold shape_thermal in E. destruct (shape_laplacian r3 t vs) as [K|] eqn:EK; [|discriminate].
  assert (B0 : balanced (length vs) T (K, fun _ => 0)). { intros w. cbn [fst snd]. rewrite weigh_zero. apply form_const. now apply (laplacian_sound r3 t). }
  injection E as <-. destruct t; try exact B0.
  - destruct vs as [|a [|b [|? ?]]]; try exact B0. destruct (bc 0%nat) as [[h Ti]|] eqn:Eb; [|exact B0]. rewrite (Hb _ _ _ Eb). cbn [length] in *.
    intros w. unfold beam_convection. cbn [fst snd]. rewrite !form_add_at, !weigh_add by lia. pose proof (B0 w) as Bw; cbn [fst snd] in Bw; rewrite Bw; ring.
  - destruct vs as [|a [|b [|c [|? ?]]]]; try discriminate. cbn [length] in *.
    assert (St : forall i Ks', (i < 3)%nat -> balanced 3 T Ks' -> balanced 3 T (match bc i with Some (h, Ti) => tri_convection [a; b; c] i h Ti Ks' | None => Ks' end)).
    { intros i Ks' Hi HK. destruct (bc i) as [[h Ti]|] eqn:Eb; [|exact HK]. rewrite (Hb _ _ _ Eb). intros w. unfold tri_convection. cbv zeta. cbn [fst snd].
      assert ((i + 0) mod 3 < 3)%nat by (apply Nat.mod_upper_bound; lia). assert ((i + 1) mod 3 < 3)%nat by (apply Nat.mod_upper_bound; lia).
      rewrite !form_add_at, !weigh_add by assumption. rewrite (HK w). field. }
    cbn [seq fold_left]. apply St; [lia|]. apply St; [lia|]. apply St; [lia|]. exact B0.
Qed.
Lemma shape_thermal_some r3 t vs bc K : shape_laplacian r3 t vs = Some K -> exists Ks, shape_thermal r3 t vs bc = Some Ks.
Proof. intros E. unfold shape_thermal. rewrite E. eauto. Qed.
(** Whatever the mesh, the coefficients and the placement of the convective conditions: if they all name one ambient temperature, that temperature,
    uniformly, solves the assembled system. *)
Theorem C75_ambient_equilibrium : forall r3 nodes elems bc T, fem_mesh r3 nodes elems ->
  (forall id i h Ti, bc id i = Some (h, Ti) -> Ti = T) ->
  exists A b, thermal_laplacian r3 nodes elems bc = Ok (A, b) /\
    let n := length (t_ids nodes) in forall i, (i < n)%nat -> rsum n (fun j => A i j * T) = b i.
Proof.
  intros r3 nodes elems bc T M Hb. set (n := length (t_ids nodes)).
  assert (G : exists Ab, thermal_laplacian r3 nodes elems bc = Ok Ab /\ balanced n T Ab).
  { destruct M as [W I WE R Sh]. unfold thermal_laplacian.
    rewrite (foldM_positions elems (fun Ab id e => if has_branch true (e_type e) (length (e_nodes e)) then vs <- mapM (t_get nodes) (e_nodes e) ;; pos <- positions nodes (e_nodes e) ;; match shape_thermal r3 (e_type e) vs (bc id) with Some Ks => Ok (stamp pos (fst Ks) (fst Ab), stamp_vec pos (snd Ks) (snd Ab)) | None => Ok Ab end else Ok Ab)) by exact WE.
    apply (foldM_invariant _ (fun done Ab => balanced n T Ab)).
    - intros w. cbn [fst snd]. now rewrite form_zero, weigh_zero.
    - intros done id rest A E IH. destruct (wf_get elems id WE) as [e He]; [rewrite E; apply in_or_app; right; now left|]. rewrite He. cbn [bind].
      specialize (R id e He). specialize (Sh id e He). destruct (has_branch true (e_type e) (length (e_nodes e))) eqn:HB; [|exists A; split; [reflexivity|exact IH]].
      rewrite (mapM_get nodes _ W R). cbn [bind]. destruct (positions_ok nodes _ I R) as [-> PF]. cbn [bind]. fold (vertices nodes e).
      destruct (branch_laplacian r3 (e_type e) (vertices nodes e)) as [K EK]; [now rewrite part_length|]. destruct (shape_thermal_some r3 _ _ (bc id) K EK) as [Ks EKs]. rewrite EKs. eexists. split; [reflexivity|].
      intros w. cbn [fst snd]. rewrite form_stamp, weigh_stamp by exact PF. rewrite (IH w). f_equal. rewrite at_const, map_length, <- (part_length nodes e). apply (thermal_balanced r3 (e_type e) (vertices nodes e) (bc id)); auto. intros; eapply Hb; eauto. }
  destruct G as ([A b] & E & B). exists A, b. split; [exact E|]. cbv zeta. fold n. intros i Hi. specialize (B (delta i)). cbn [fst snd] in B. rewrite form_delta_l in B by exact Hi. rewrite B. unfold weigh, delta.
  rewrite (rsum_ext n _ (fun j => if Nat.eqb j i then b j else 0)) by (intros j _; destruct (Nat.eqb j i); ring). now apply rsum_pick.
Qed.
Print Assumptions C75_ambient_equilibrium.
Example C75_case : fem_mesh 0 square_nodes square_elems /\
  (forall id i h Ti, (fun (id : Z) (i : nat) => if (Z.eqb id 1 && Nat.eqb i 2)%bool then Some (7, 20) else None) id i = Some (h, Ti) -> Ti = 20) /\
  exists A b, thermal_laplacian 0 square_nodes square_elems (fun (id : Z) (i : nat) => if (Z.eqb id 1 && Nat.eqb i 2)%bool then Some (7, 20) else None) = Ok (A, b).
Proof.
  assert (H : forall id i h Ti, (fun (id : Z) (i : nat) => if (Z.eqb id 1 && Nat.eqb i 2)%bool then Some (7, 20) else None) id i = Some (h, Ti) -> Ti = 20) by (intros id i h Ti; destruct (Z.eqb id 1 && Nat.eqb i 2)%bool; [now intros [= _ <-]|discriminate]).
  split; [apply square_mesh|]. split; [exact H|]. destruct (C75_ambient_equilibrium 0 square_nodes square_elems _ 20 (square_mesh 0) H) as (A & b & E & _). eauto.
Qed.
(** But the exchange enters with the wrong sign. A unit beam is held at 1 at its start; its surroundings are at 0, so the other end should be between
    0 and 1. With coefficient 2 the equation of that end is satisfied only by -1; with coefficient 1 by nothing. *)
Theorem C75_sign_refuted : forall h, exists A b,
  thermal_laplacian 0 (table_of [P 0 0 0; P 1 0 0]) (table_of [beam 0 1]) (fun _ _ => Some (h, 0)) = Ok (A, b) /\
  (h = 2 -> forall u, A 1%nat 0%nat * 1 + A 1%nat 1%nat * u = b 1%nat -> u = -1) /\
  (h = 1 -> forall u, A 1%nat 0%nat * 1 + A 1%nat 1%nat * u <> b 1%nat).
Proof.
  intros h. eexists. eexists. split; [reflexivity|].
  assert (L : beam_length (P 0 0 0) (P 1 0 0) = 1) by (apply pnorm_unique; [lra|]; unfold pdot, psub; cbn; ring).
  cbn -[beam_length Rmult Rplus Rinv beam_laplacian]. unfold add_at, add_vec, beam_laplacian, mscale, of_rows. cbn -[beam_length Rmult Rplus Rinv]. rewrite L.
  change (Pos.to_nat 1) with 1%nat. cbn -[Rmult Rplus Rinv]. destruct (Rlt_dec 0 1) as [_|N]; [|lra]. cbn -[Rmult Rplus Rinv]. split; intros -> u H; lra.
Qed.
Print Assumptions C75_sign_refuted.

(** ** C76: sources *)
Definition incidences (nodes : table pt) (elems : table element) (i : nat) : R :=
  lsum (fun e => if has_branch false (e_type e) (length (e_nodes e)) then INR (count_occ Nat.eq_dec (map (pos_of nodes) (e_nodes e)) i) else 0) (elements elems).
Theorem C76_source : forall r3 nodes elems s, fem_mesh r3 nodes elems ->
  exists B, fem_source nodes elems s = Ok B /\ forall i, B i = s * incidences nodes elems i.
Proof.
  intros r3 nodes elems s [W I WE Rf _]. unfold fem_source, incidences.
  rewrite (foldM_positions elems (fun B id e => if has_branch false (e_type e) (length (e_nodes e)) then pos <- positions nodes (e_nodes e) ;; Ok (fold_left (fun B p => fun i => if Nat.eqb i p then B i + s else B i) pos B) else Ok B)) by exact WE.
  apply (foldM_invariant _ (fun done B => forall i, B i = s * lsum (fun e => if has_branch false (e_type e) (length (e_nodes e)) then INR (count_occ Nat.eq_dec (map (pos_of nodes) (e_nodes e)) i) else 0) (flat_map (fun id => match t_get elems id with Ok e => [e] | _ => [] end) done))).
  - intros i. unfold lsum. cbn. ring.
  - intros done id rest B E IH. destruct (wf_get elems id WE) as [e He]; [rewrite E; apply in_or_app; right; now left|]. rewrite He. cbn [bind].
    assert (ES : flat_map (fun id => match t_get elems id with Ok e => [e] | _ => [] end) (done ++ [id]) = flat_map (fun id => match t_get elems id with Ok e => [e] | _ => [] end) done ++ [e]) by (rewrite flat_map_app; cbn; rewrite He; reflexivity). rewrite ES.
    destruct (has_branch false (e_type e) (length (e_nodes e))) eqn:HB.
    + destruct (positions_ok nodes _ I (Rf id e He)) as [-> _]. cbn [bind]. eexists. split; [reflexivity|]. intros i. rewrite lsum_app. unfold lsum at 2. cbn [fold_right]. rewrite HB.
      assert (G : forall pos B, fold_left (fun (B : nat -> R) p => fun i => if Nat.eqb i p then B i + s else B i) pos B i = B i + s * INR (count_occ Nat.eq_dec pos i)).
      { induction pos as [|p pos IHp]; intros B'; cbn [fold_left count_occ]; [cbn; ring|]. rewrite IHp. destruct (Nat.eqb_spec i p), (Nat.eq_dec p i); try congruence; rewrite S_INR; ring. }
      rewrite G, IH. ring.
    + exists B. split; [reflexivity|]. intros i. rewrite IH, lsum_app. unfold lsum at 3. cbn [fold_right]. rewrite HB. ring.
Qed.
Print Assumptions C76_source.
(** The load does not see the size of the elements: the same bar carries twice the total load when its one beam is cut in two, and a bar ten times as
    long carries the same. *)
Theorem C76_refinement_refuted : forall s,
  let totalload n r := match r with Ok B => rsum n B | _ => 0 end in
  totalload 2%nat (fem_source (table_of [P 0 0 0; P 1 0 0]) (table_of [beam 0 1]) s) = 2 * s /\
  totalload 2%nat (fem_source (table_of [P 0 0 0; P 10 0 0]) (table_of [beam 0 1]) s) = 2 * s /\
  totalload 3%nat (fem_source (table_of [P 0 0 0; P (1 / 2) 0 0; P 1 0 0]) (table_of [beam 0 1; beam 1 2]) s) = 4 * s.
Proof. intros s. cbv -[Rplus Rmult Rdiv IZR]. repeat match goal with |- _ /\ _ => split end; ring. Qed.
Print Assumptions C76_refinement_refuted.
Example C76_case : fem_mesh 0 square_nodes square_elems /\ incidences square_nodes square_elems 1 = 2 /\ incidences square_nodes square_elems 3 = 2 /\ incidences square_nodes square_elems 0 = 2.
Proof. split; [apply square_mesh|]. cbv -[Rplus Rmult IZR]. repeat match goal with |- _ /\ _ => split end; ring. Qed.

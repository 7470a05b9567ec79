(** Proofs about structured meshes. *)
From Coq Require Import ZArith List Bool Lia QArith Qabs Qround Lqa Permutation.
From Verif Require Import Prelude Vec ZMap Mesh_Model Mesh_Spec Mesh_Proofs HashGrid_Model HashGrid_Spec
  HashGrid_Proofs Mesh_Check Merge_Model Merge_Spec Merge_Proofs Face_Model Face_Spec Face_Proofs Grid_Model Grid_Spec.
Import ListNotations.
Open Scope Z_scope.

(** ** Loops that append *)

Definition grown {A} (st : table A * Z) (vs : list A) : Prop :=
  numbered (fst st) vs /\ snd st = Z.of_nat (length vs).

Lemma grown_empty {A} : grown (@t_empty A, 0) [].
Proof. split; [apply numbered_empty|reflexivity]. Qed.

Lemma grown_push {A} (st : table A * Z) vs v : grown st vs -> grown (push st v) (vs ++ [v]).
Proof.
  intros [N S]. split; cbn [push fst snd].
  - apply numbered_add_id; [assumption|]. exact S.
  - rewrite app_length, S. cbn [length]. lia.
Qed.

Lemma grown_fold {A B} (f : table A * Z -> B -> table A * Z) (g : B -> list A) :
  (forall st vs b, grown st vs -> grown (f st b) (vs ++ g b)) ->
  forall l st vs, grown st vs -> grown (fold_left f l st) (vs ++ flat_map g l).
Proof.
  intros H l. induction l as [|b l IH]; intros st vs G; cbn.
  - now rewrite app_nil_r.
  - rewrite app_assoc. apply IH. now apply H.
Qed.

Lemma grown_pushes {A} (l : list A) st vs : grown st vs -> grown (fold_left push l st) (vs ++ l).
Proof.
  revert st vs. induction l as [|b l IH]; intros st vs G; cbn.
  - now rewrite app_nil_r.
  - change (b :: l) with ([b] ++ l). rewrite app_assoc. apply IH. now apply grown_push.
Qed.

(** ** The index box *)

Definition box_list (nu nv nw : Z) : list (Z * Z * Z) :=
  flat_map (fun k => flat_map (fun j => map (fun i => (i, j, k)) (upto nu)) (upto nv)) (upto nw).

Lemma upto_in n i : In i (upto n) <-> 0 <= i < n.
Proof. unfold upto. rewrite zrange_in. lia. Qed.

Lemma upto_nth n i : 0 <= i < n -> nth_error (upto n) (Z.to_nat i) = Some i.
Proof. intros H. unfold upto. rewrite zrange_nth by lia. f_equal. lia. Qed.

Lemma upto_length n : length (upto n) = Z.to_nat n.
Proof. apply zrange_length. Qed.

Lemma box_list_in nu nv nw i j k : In (i, j, k) (box_list nu nv nw) <-> 0 <= i < nu /\ 0 <= j < nv /\ 0 <= k < nw.
Proof.
  unfold box_list. rewrite in_flat_map. split.
  - intros (k' & Hk & H). apply in_flat_map in H. destruct H as (j' & Hj & H). apply in_map_iff in H.
    destruct H as (i' & [= -> -> ->] & Hi). apply upto_in in Hi, Hj, Hk. auto.
  - intros (Hi & Hj & Hk). exists k. split; [now apply upto_in|]. apply in_flat_map. exists j.
    split; [now apply upto_in|]. apply in_map_iff. exists i. split; [reflexivity|]. now apply upto_in.
Qed.

Lemma flat_map_length_const {A B} (g : A -> list B) (L : nat) l :
  (forall a, In a l -> length (g a) = L) -> length (flat_map g l) = (length l * L)%nat.
Proof.
  induction l as [|a l IH]; cbn; intros H; [reflexivity|].
  rewrite app_length, H, IH by auto. reflexivity.
Qed.

Lemma nth_flat_map_const {A B} (g : A -> list B) (L : nat) l i q :
  (forall a, In a l -> length (g a) = L) -> (q < L)%nat ->
  nth_error (flat_map g l) (i * L + q) = match nth_error l i with Some a => nth_error (g a) q | None => None end.
Proof.
  intros H Hq. revert i. induction l as [|a l IH]; intros i; cbn.
  - assert (E : forall n, @nth_error B [] n = None) by (intros []; reflexivity). rewrite E. now destruct i.
  - destruct i as [|i]; cbn.
    + rewrite nth_error_app1; [reflexivity|]. rewrite H; auto. now left.
    + rewrite nth_error_app2 by (rewrite H by (now left); lia). rewrite H by now left.
      replace (L + i * L + q - L)%nat with (i * L + q)%nat by lia. apply IH. intros b Hb. apply H. now right.
Qed.

Lemma box_list_length nu nv nw : 0 <= nu -> 0 <= nv -> 0 <= nw -> zlen (box_list nu nv nw) = nu * nv * nw.
Proof.
  intros Hu Hv Hw. unfold zlen, box_list.
  rewrite (flat_map_length_const _ (Z.to_nat nv * Z.to_nat nu)).
  - rewrite upto_length. rewrite !Nat2Z.inj_mul, !Z2Nat.id by assumption. ring.
  - intros k _. rewrite (flat_map_length_const _ (Z.to_nat nu)); rewrite ?upto_length; [reflexivity|].
    intros j _. now rewrite map_length, upto_length.
Qed.

Lemma box_list_nth nu nv nw i j k : 0 <= i < nu -> 0 <= j < nv -> 0 <= k < nw ->
  nth_error (box_list nu nv nw) (Z.to_nat (i + nu * (j + nv * k))) = Some (i, j, k).
Proof.
  intros Hi Hj Hk. unfold box_list.
  replace (Z.to_nat (i + nu * (j + nv * k)))
    with (Z.to_nat k * (Z.to_nat nv * Z.to_nat nu) + (Z.to_nat j * Z.to_nat nu + Z.to_nat i))%nat.
  2: { apply Nat2Z.inj. assert (0 <= nv * k) by nia. assert (0 <= nu * (j + nv * k)) by (apply Z.mul_nonneg_nonneg; lia).
       rewrite Z2Nat.id by lia. rewrite !Nat2Z.inj_add, !Nat2Z.inj_mul, !Z2Nat.id by lia. ring. }
  rewrite nth_flat_map_const.
  - rewrite upto_nth by assumption. rewrite nth_flat_map_const.
    + rewrite upto_nth by assumption. rewrite nth_error_map, upto_nth by assumption. reflexivity.
    + intros j' _. now rewrite map_length, upto_length.
    + lia.
  - intros k' _. rewrite (flat_map_length_const _ (Z.to_nat nu)); rewrite ?upto_length; [reflexivity|].
    intros j' _. now rewrite map_length, upto_length.
  - assert (Z.of_nat (Z.to_nat j * Z.to_nat nu + Z.to_nat i) < Z.of_nat (Z.to_nat nv * Z.to_nat nu)); [|lia].
    rewrite Nat2Z.inj_add, !Nat2Z.inj_mul, !Z2Nat.id by lia. nia.
Qed.

Lemma upto_NoDup n : NoDup (upto n).
Proof. apply zrange_NoDup. Qed.

Lemma box_list_NoDup nu nv nw : NoDup (box_list nu nv nw).
Proof.
  unfold box_list. apply NoDup_flat_map; [apply upto_NoDup| |].
  - intros k _. apply NoDup_flat_map; [apply upto_NoDup| |].
    + intros j _. apply NoDup_map_in; [apply upto_NoDup|]. intros a b _ _ [= E]. exact E.
    + intros a b x _ _ Ha Hb. apply in_map_iff in Ha, Hb. destruct Ha as (? & <- & _), Hb as (? & [= ? ?] & _). congruence.
  - intros a b x _ _ Ha Hb. apply in_flat_map in Ha, Hb. destruct Ha as (j & _ & Ha), Hb as (j' & _ & Hb).
    apply in_map_iff in Ha, Hb. destruct Ha as (? & <- & _), Hb as (? & [= ? ? ?] & _). congruence.
Qed.

Lemma map_flat_map {A B C} (f : B -> C) (g : A -> list B) l : map f (flat_map g l) = flat_map (fun a => map f (g a)) l.
Proof. induction l as [|a l IH]; cbn; [reflexivity|]. now rewrite map_app, IH. Qed.

Lemma flat_map_flat_map {A B C} (f : B -> list C) (g : A -> list B) l :
  flat_map f (flat_map g l) = flat_map (fun a => flat_map f (g a)) l.
Proof. induction l as [|a l IH]; cbn; [reflexivity|]. now rewrite flat_map_app, IH. Qed.

Lemma flat_map_map {A B C} (f : B -> list C) (g : A -> B) l : flat_map f (map g l) = flat_map (fun a => f (g a)) l.
Proof. induction l as [|a l IH]; cbn; [reflexivity|]. now rewrite IH. Qed.

Lemma flat_map_single {A B} (f : A -> B) l : flat_map (fun a => [f a]) l = map f l.
Proof. induction l as [|a l IH]; cbn; [reflexivity|]. now rewrite IH. Qed.

(** ** Node numbers *)

Definition off : Type := (Z * Z * Z)%type.
Definition ox (o : off) : Z := fst (fst o).
Definition oy (o : off) : Z := snd (fst o).
Definition oz (o : off) : Z := snd o.
Definition oadd (a b : off) : off := (ox a + ox b, oy a + oy b, oz a + oz b).
Definition osub (a b : off) : off := (ox a - ox b, oy a - oy b, oz a - oz b).
Definition pid (nu nv : Z) (p : off) : Z := point_id nu nv (ox p) (oy p) (oz p).
Definition inbox (nu nv nw : Z) (c : off) : Prop := 0 <= ox c < nu /\ 0 <= oy c < nv /\ 0 <= oz c < nw.

Lemma point_id_inj nu nv i j k i' j' k' :
  0 <= i <= nu -> 0 <= i' <= nu -> 0 <= j <= nv -> 0 <= j' <= nv ->
  point_id nu nv i j k = point_id nu nv i' j' k' -> i = i' /\ j = j' /\ k = k'.
Proof.
  unfold point_id. intros Hi Hi' Hj Hj' E.
  assert (j + (nv + 1) * k = j' + (nv + 1) * k') by nia.
  assert (i = i') by nia. assert (k = k') by nia. nia.
Qed.

(** Nodes of a structured mesh. *)
Definition node_list (pos : Z -> Z -> Z -> coord) (nu nv nw : Z) : list coord :=
  map (fun c => pos (ox c) (oy c) (oz c)) (box_list (nu + 1) (nv + 1) (nw + 1)).

Lemma grid_nodes_ok pos nu nv nw : grown (grid_nodes pos nu nv nw) (node_list pos nu nv nw).
Proof.
  unfold grid_nodes, node_list, box_list. rewrite map_flat_map.
  change (flat_map ?f ?l) with ([] ++ flat_map f l).
  apply grown_fold; [|apply grown_empty]. intros st vs k G. rewrite map_flat_map.
  apply grown_fold; [|exact G]. clear st vs G. intros st vs j G. rewrite map_map. cbn [ox oy oz fst snd].
  rewrite <- flat_map_single. apply grown_fold; [|exact G]. clear st vs G. intros st vs i G. now apply grown_push.
Qed.

Lemma grid_cells_ok d nu nv nw :
  grown (grid_cells d nu nv nw) (flat_map (fun c => hex_cell d nu nv (ox c) (oy c) (oz c)) (box_list nu nv nw)).
Proof.
  unfold grid_cells, box_list. rewrite flat_map_flat_map.
  change (flat_map ?f ?l) with ([] ++ flat_map f l).
  apply grown_fold; [|apply grown_empty]. intros st vs k G. rewrite flat_map_flat_map.
  apply grown_fold; [|exact G]. clear st vs G. intros st vs j G. rewrite flat_map_map. cbn [ox oy oz fst snd].
  apply grown_fold; [|exact G]. clear st vs G. intros st vs i G. now apply grown_pushes.
Qed.

(** Patterns: the elements of a cell by the offsets of their nodes from the lowest corner. *)
Definition pattern : Type := list (etype * list off).
Definition stamp (nu nv : Z) (c : off) (p : etype * list off) : element :=
  Element (fst p) (map (fun o => pid nu nv (oadd c o)) (snd p)) [].
Definition stamped (pat : pattern) (nu nv nw : Z) : list element :=
  flat_map (fun c => map (stamp nu nv c) pat) (box_list nu nv nw).

Definition hex_offs : list off :=
  [(0,0,0); (1,0,0); (1,1,0); (0,1,0); (0,0,1); (1,0,1); (1,1,1); (0,1,1)].
Definition hex_pat (d : bool) : pattern :=
  if d then map (fun p => (ET_TETRAHEDRON, map (fun q => nth q hex_offs (0,0,0)) p)) six_tets
  else [(ET_HEXAHEDRON, hex_offs)].

Ltac list_ring := repeat match goal with
  | |- _ :: _ = _ :: _ => f_equal
  | |- Element _ _ _ = Element _ _ _ => f_equal
  end; try reflexivity; try ring.

Lemma hex_cell_stamp d nu nv c : hex_cell d nu nv (ox c) (oy c) (oz c) = map (stamp nu nv c) (hex_pat d).
Proof.
  destruct c as [[i j] k]. cbn [ox oy oz fst snd]. destruct d; cbn -[Z.add Z.mul];
    unfold cell_nodes, stamp, pid, oadd, point_id; cbn -[Z.add Z.mul]; list_ring.
Qed.

Definition quad_offs : list off := [(0,0,0); (1,0,0); (1,1,0); (0,1,0)].
Definition quad_pat (d : bool) : pattern :=
  if d then [(ET_TRIANGLE, [(0,0,0); (1,0,0); (1,1,0)]); (ET_TRIANGLE, [(0,0,0); (1,1,0); (0,1,0)])]
  else [(ET_QUADRILATERAL, quad_offs)].

Lemma quad_cell_stamp d nu nv i j : quad_cell d nu i j = map (stamp nu nv (i, j, 0)) (quad_pat d).
Proof.
  destruct d; cbn -[Z.add Z.mul]; unfold stamp, pid, oadd, point_id; cbn -[Z.add Z.mul]; list_ring.
Qed.

Definition line_pat : pattern := [(ET_BEAM, [(0,0,0); (1,0,0)])].

(** ** Conformity of stamped patterns *)

Definition off_eqb (a b : off) : bool := (ox a =? ox b) && (oy a =? oy b) && (oz a =? oz b).
Lemma off_eqb_iff a b : off_eqb a b = true <-> a = b.
Proof.
  destruct a as [[i j] k], b as [[i' j'] k']. unfold off_eqb. cbn [ox oy oz fst snd].
  rewrite !andb_true_iff, !Z.eqb_eq. split; [intros [[-> ->] ->]; reflexivity|intros [= -> -> ->]; auto].
Qed.

(** Executable multiset equality. *)
Section PermB.
  Context {A : Type} (eqb : A -> A -> bool).
  Fixpoint take_out (p : A) (l : list A) : option (list A) :=
    match l with
    | [] => None
    | q :: l' => if eqb q p then Some l' else match take_out p l' with Some r => Some (q :: r) | None => None end
    end.
  Fixpoint permb (l k : list A) : bool :=
    match l with
    | [] => match k with [] => true | _ => false end
    | p :: l' => match take_out p k with Some k' => permb l' k' | None => false end
    end.
  Hypothesis eqb_iff : forall a b, eqb a b = true <-> a = b.
  Lemma take_out_perm p l : forall r, take_out p l = Some r -> Permutation (p :: r) l.
  Proof.
    induction l as [|q l IH]; cbn; intros r; [discriminate|]. destruct (eqb q p) eqn:E.
    - apply eqb_iff in E. intros [= ->]. now subst.
    - destruct (take_out p l) as [r'|]; [|discriminate]. intros [= <-].
      rewrite perm_swap. constructor. now apply IH.
  Qed.
  Lemma take_out_none p l : take_out p l = None -> ~ In p l.
  Proof.
    induction l as [|q l IH]; cbn; [tauto|]. intros E [H|H].
    - subst. assert (eqb p p = true) as X by now apply eqb_iff. now rewrite X in E.
    - destruct (eqb q p); [discriminate|]. destruct (take_out p l); [discriminate|]. now apply IH.
  Qed.
  Lemma permb_iff l : forall k, permb l k = true <-> Permutation l k.
  Proof.
    induction l as [|p l IH]; intros k; cbn.
    - split.
      + destruct k; [constructor|discriminate].
      + intros H. apply Permutation_nil in H. now subst.
    - destruct (take_out p k) as [k'|] eqn:E.
      + apply take_out_perm in E. rewrite IH. split; intros H.
        * rewrite <- E. now constructor.
        * rewrite <- E in H. now apply Permutation_cons_inv in H.
      + apply take_out_none in E. split; [discriminate|]. intros H. destruct E. apply (Permutation_in _ H). now left.
  Qed.
End PermB.

Definition dirs27 : list off :=
  flat_map (fun x => flat_map (fun y => map (fun z => (x, y, z)) [-1; 0; 1]) [-1; 0; 1]) [-1; 0; 1].

Definition pat_faces (pat : pattern) : list (ftype * list off) :=
  flat_map (fun p => map (fun tp => (fst tp, map (fun q => nth (Z.to_nat q) (snd p) (0,0,0)) (snd tp))) (face_table (fst p))) pat.

(** The face [f] of one cell coincides with the face [g] of the cell displaced by [d]. *)
Definition meets (f g : ftype * list off) (d : off) : bool :=
  ftype_eqb (fst f) (fst g) && permb off_eqb (snd f) (map (oadd d) (snd g)).

Definition indexed_list {A} (l : list A) : list (nat * A) := combine (seq 0 (length l)) l.

Definition partners (pf : list (ftype * list off)) (q : nat) (f : ftype * list off) : list (nat * off) :=
  filter (fun p => negb ((fst p =? q)%nat && off_eqb (snd p) (0,0,0)))
    (flat_map (fun g => map (fun d => (fst g, d)) (filter (meets f (snd g)) dirs27)) (indexed_list pf)).

Definition pair_eqb {A} (eqb : A -> A -> bool) (p q : A * A) : bool := eqb (fst p) (fst q) && eqb (snd p) (snd q).

(** The side of the cell in direction [d]. *)
Definition on_side (d o : off) : bool :=
  (if ox d =? 0 then true else 2 * ox o - 1 =? ox d) && (if oy d =? 0 then true else 2 * oy o - 1 =? oy d) &&
  (if oz d =? 0 then true else 2 * oz o - 1 =? oz d).

Definition zero_one (x : Z) : bool := (x =? 0) || (x =? 1).
Definition in_cube (o : off) : bool := zero_one (ox o) && zero_one (oy o) && zero_one (oz o).

(** Checks of a pattern, decided by computation: [ds] are the outward directions of a cell. *)
Definition face_check (ds : list off) (pf : list (ftype * list off)) (qf : nat * (ftype * list off)) : bool :=
  match partners pf (fst qf) (snd qf) with
  | [(q', d)] =>
      (off_eqb d (0,0,0) || existsb (off_eqb d) ds) &&
      match nth_error pf q' with
      | Some g => permb (pair_eqb off_eqb) (cycle (snd (snd qf))) (map swap (cycle (map (oadd d) (snd g))))
      | None => false
      end &&
      forallb (fun d0 => Bool.eqb (off_eqb d d0) (forallb (on_side d0) (snd (snd qf)))) ds
  | _ => false
  end && negb (match snd (snd qf) with [] => true | _ => false end) && forallb in_cube (snd (snd qf)).

Fixpoint offs_eqb (l k : list off) : bool :=
  match l, k with [], [] => true | a :: l, b :: k => off_eqb a b && offs_eqb l k | _, _ => false end.
Lemma offs_eqb_eq l k : offs_eqb l k = true -> l = k.
Proof.
  revert k. induction l as [|a l IH]; intros [|b k]; cbn; try discriminate; [reflexivity|].
  rewrite andb_true_iff, off_eqb_iff. intros [-> H]. f_equal. auto.
Qed.

(** Coinciding edges of a plane pattern are traversed in opposite directions. *)
Definition rev_check (pat : pattern) : bool :=
  forallb (fun qf => forallb (fun p => match nth_error (pat_faces pat) (fst p) with
      | Some g => offs_eqb (map (oadd (snd p)) (snd g)) (rev (snd (snd qf))) | None => false end)
    (partners (pat_faces pat) (fst qf) (snd qf))) (indexed_list (pat_faces pat)).

Definition unit_dirs : list off := [(1,0,0); (-1,0,0); (0,1,0); (0,-1,0); (0,0,1); (0,0,-1)].
Definition flat_dirs : list off := [(1,0,0); (-1,0,0); (0,1,0); (0,-1,0)].
Definition line_dirs : list off := [(1,0,0); (-1,0,0)].

Fixpoint nodupb_off (l : list off) : bool :=
  match l with [] => true | x :: r => negb (existsb (off_eqb x) r) && nodupb_off r end.

Definition elem_check (p : etype * list off) : bool :=
  (length (snd p) =? node_count (fst p))%nat && forallb in_cube (snd p) && nodupb_off (snd p).

Definition pattern_check (ds : list off) (pat : pattern) : bool :=
  forallb elem_check pat && forallb (face_check ds (pat_faces pat)) (indexed_list (pat_faces pat)).

Lemma hex_pat_check d : pattern_check unit_dirs (hex_pat d) = true.
Proof. destruct d; vm_compute; reflexivity. Qed.
Lemma quad_pat_check d : pattern_check flat_dirs (quad_pat d) = true.
Proof. destruct d; vm_compute; reflexivity. Qed.
Lemma quad_rev_check d : rev_check (quad_pat d) = true.
Proof. destruct d; vm_compute; reflexivity. Qed.
Lemma line_pat_check : pattern_check line_dirs line_pat = true.
Proof. vm_compute; reflexivity. Qed.

Definition td (f : face) : ftype * list Z := (f_type f, f_nodes f).

Lemma map_Some_inj {A} (l k : list A) : map Some l = map Some k -> l = k.
Proof. revert k. induction l as [|a l IH]; intros [|b k]; cbn; try discriminate; [reflexivity|]. intros [= -> H]. f_equal. auto. Qed.

Lemma map_nth_error_all {A} (l : list A) : map (nth_error l) (seq 0 (length l)) = map Some l.
Proof.
  apply nth_error_ext. intros i. rewrite !nth_error_map. destruct (Nat.lt_ge_cases i (length l)) as [H|H].
  - rewrite nth_error_nth' with (d := 0%nat) by now rewrite seq_length. rewrite seq_nth by assumption. cbn.
    destruct (nth_error l i) eqn:E; [reflexivity|]. apply nth_error_None in E. lia.
  - rewrite (proj2 (nth_error_None (seq 0 (length l)) i)) by now rewrite seq_length.
    now rewrite (proj2 (nth_error_None l i)).
Qed.

(** The faces of a mesh in order. *)
Lemma generated_list elems es F t el : numbered elems es -> generated elems (t_ids elems) F t el ->
  map td F = flat_map (fun e => map td (mk_faces e)) es.
Proof.
  intros N G. apply map_Some_inj.
  assert (E : map Some (map td F) = map (fun z => nth_error (map td F) (Z.to_nat z)) (zrange (length F))).
  { rewrite <- map_nth_error_all. unfold zrange. rewrite map_map, map_length. apply map_ext. intros i. f_equal. lia. }
  rewrite E, <- (gn_order _ _ _ _ _ G), map_flat_map, map_flat_map.
  rewrite <- (numbered_values elems es (Element ET_NONE [] []) N) at 1. rewrite flat_map_map.
  assert (H : forall l, incl l (t_ids elems) ->
    flat_map (fun a => map (fun z => nth_error (map td F) (Z.to_nat z)) (faces_listed el a)) l =
    flat_map (fun a => map Some (map td (mk_faces match t_get elems a with Ok v => v | _ => Element ET_NONE [] [] end))) l).
  { induction l as [|id l IH]; intros Hl; cbn [flat_map]; [reflexivity|]. f_equal; [|apply IH; intros x Hx; apply Hl; now right].
    assert (Hid : In id (t_ids elems)) by (apply Hl; now left).
    destruct (wf_get _ _ (nb_wf _ _ N) Hid) as [e He]. rewrite He.
    destruct (gn_done _ _ _ _ _ G id e Hid He) as (start & Hel & Hnth).
    unfold faces_listed. rewrite Hel. cbn [e_faces set_e_faces].
    unfold ids_from. rewrite map_map. apply nth_error_ext. intros j. rewrite !nth_error_map.
    destruct (Nat.lt_ge_cases j (length (mk_faces e))) as [Hj|Hj].
    - rewrite nth_error_nth' with (d := 0%nat) by now rewrite seq_length. rewrite seq_nth by assumption. cbn [option_map].
      rewrite Nat2Z.id, nth_error_map. destruct (nth_error (mk_faces e) j) as [f|] eqn:Ef.
      + rewrite (Hnth _ _ Ef). reflexivity.
      + apply nth_error_None in Ef. lia.
    - rewrite (proj2 (nth_error_None (seq _ _) j)) by now rewrite seq_length.
      now rewrite (proj2 (nth_error_None (mk_faces e) j)). }
  exact (H _ (incl_refl _)).
Qed.

Definition face_of (nu nv : Z) (c : off) (f : ftype * list off) : ftype * list Z :=
  (fst f, map (fun o => pid nu nv (oadd c o)) (snd f)).

Lemma stamp_faces nu nv c p : elem_check p = true ->
  map td (mk_faces (stamp nu nv c p)) =
  map (face_of nu nv c) (map (fun tp => (fst tp, map (fun q => nth (Z.to_nat q) (snd p) (0,0,0)) (snd tp))) (face_table (fst p))).
Proof.
  intros Hc. unfold elem_check in Hc. apply andb_true_iff in Hc. destruct Hc as [Hc _]. apply andb_true_iff in Hc.
  destruct Hc as [Hl _]. apply Nat.eqb_eq in Hl.
  unfold mk_faces, stamp. cbn [e_type e_nodes]. rewrite !map_map. apply map_ext_in. intros tp Htp.
  unfold td, face_of. cbn [f_type f_nodes fst snd]. f_equal. rewrite map_map. apply map_ext_in. intros q Hq.
  pose proof (face_table_range _ _ _ Htp Hq). unfold npos.
  rewrite nth_indep with (d' := pid nu nv (oadd c (0,0,0))).
  - now rewrite map_nth with (f := fun o => pid nu nv (oadd c o)).
  - rewrite map_length. lia.
Qed.

Lemma stamped_faces pat nu nv nw : forallb elem_check pat = true ->
  flat_map (fun e => map td (mk_faces e)) (stamped pat nu nv nw) =
  flat_map (fun c => map (face_of nu nv c) (pat_faces pat)) (box_list nu nv nw).
Proof.
  intros H. unfold stamped. rewrite flat_map_flat_map. apply flat_map_ext. intros c.
  rewrite flat_map_map. unfold pat_faces. rewrite map_flat_map.
  revert H. induction pat as [|p pat IH]; cbn [flat_map forallb]; intros H; [reflexivity|].
  apply andb_true_iff in H. destruct H as [H1 H2]. rewrite stamp_faces by assumption. f_equal. now apply IH.
Qed.

Lemma Permutation_map_inj_in {A B} (f : A -> B) l k :
  (forall a b, In a l -> In b k -> f a = f b -> a = b) -> Permutation (map f l) (map f k) -> Permutation l k.
Proof.
  intros Hf H. apply Permutation_map_inv in H. destruct H as (l3 & E & P).
  assert (l = l3); [|subst; now apply Permutation_sym].
  assert (Hf' : forall a b, In a l -> In b l3 -> f a = f b -> a = b).
  { intros a b Ha Hb. apply Hf; [assumption|]. now apply (Permutation_in _ (Permutation_sym P)). }
  clear - E Hf'. revert l3 E Hf'. induction l as [|a l IH]; intros [|b k]; cbn; try discriminate; [reflexivity|].
  intros [= E1 E2] H. f_equal; [apply H; auto|]. apply IH; auto.
Qed.

Lemma oadd_sub c o : osub (oadd c o) c = o.
Proof. destruct c as [[a b] d], o as [[x y] z]. unfold osub, oadd; cbn [ox oy oz fst snd]. apply f_equal2; [apply f_equal2|]; lia. Qed.
Lemma oadd_osub c c' : oadd c (osub c' c) = c'.
Proof. destruct c as [[a b] d], c' as [[x y] z]. unfold osub, oadd; cbn [ox oy oz fst snd]. apply f_equal2; [apply f_equal2|]; lia. Qed.
Lemma osub_shift c c' o : osub (oadd c' o) c = oadd (osub c' c) o.
Proof. destruct c as [[a b] d], c' as [[x y] z], o as [[p q] r]. unfold osub, oadd; cbn [ox oy oz fst snd]. apply f_equal2; [apply f_equal2|]; lia. Qed.
Lemma oadd_assoc a b c : oadd a (oadd b c) = oadd (oadd a b) c.
Proof. unfold oadd; cbn [ox oy oz fst snd]. apply f_equal2; [apply f_equal2|]; lia. Qed.
Lemma osub_zero c c' : osub c' c = (0,0,0) <-> c' = c.
Proof.
  destruct c as [[a b] d], c' as [[x y] z]. unfold osub; cbn [ox oy oz fst snd]. split.
  - intros [= H1 H2 H3]. apply f_equal2; [apply f_equal2|]; lia.
  - intros [= -> -> ->]. apply f_equal2; [apply f_equal2|]; lia.
Qed.

Lemma in_cube_iff o : in_cube o = true <-> 0 <= ox o <= 1 /\ 0 <= oy o <= 1 /\ 0 <= oz o <= 1.
Proof.
  unfold in_cube, zero_one. rewrite !andb_true_iff, !orb_true_iff, !Z.eqb_eq. lia.
Qed.

Lemma dirs27_in d : -1 <= ox d <= 1 -> -1 <= oy d <= 1 -> -1 <= oz d <= 1 -> In d dirs27.
Proof.
  destruct d as [[x y] z]. cbn [ox oy oz fst snd]. intros H1 H2 H3.
  assert (Hx : x = -1 \/ x = 0 \/ x = 1) by lia. assert (Hy : y = -1 \/ y = 0 \/ y = 1) by lia.
  assert (Hz : z = -1 \/ z = 0 \/ z = 1) by lia.
  destruct Hx as [->|[->| ->]], Hy as [->|[->| ->]], Hz as [->|[->| ->]]; cbn; tauto.
Qed.

Lemma indexed_nth {A} (l : list A) q x : nth_error l q = Some x -> nth_error (indexed_list l) q = Some (q, x).
Proof.
  intros H. unfold indexed_list. assert (q < length l)%nat by (apply nth_error_Some; congruence).
  rewrite nth_error_nth' with (d := (0%nat, x)) by (rewrite combine_length, seq_length; lia).
  rewrite combine_nth by now rewrite seq_length. rewrite seq_nth by assumption. now rewrite (nth_error_nth _ _ _ H).
Qed.

Section Conform.
  Context (pat : pattern) (ds : list off) (nu nv nw : Z).
  Context (CHK : pattern_check ds pat = true).
  Let PF := pat_faces pat.
  Let L := length PF.
  Let cells : list off := box_list nu nv nw.
  Let pt (c o : off) : Z := pid nu nv (oadd c o).

  Lemma cells_in c : In c cells <-> inbox nu nv nw c.
  Proof. destruct c as [[i j] k]. unfold cells, inbox; cbn [ox oy oz fst snd]. apply box_list_in. Qed.

  Lemma pt_inj c c' o o' : inbox nu nv nw c -> inbox nu nv nw c' -> in_cube o = true -> in_cube o' = true ->
    pt c o = pt c' o' -> oadd c o = oadd c' o'.
  Proof.
    unfold inbox. intros Hc Hc' Ho Ho' E. apply in_cube_iff in Ho, Ho'.
    apply point_id_inj in E; unfold oadd in *; cbn [ox oy oz fst snd] in *; try lia.
    destruct E as (-> & -> & ->). reflexivity.
  Qed.

  Record face_facts (q : nat) (pf : ftype * list off) (q' : nat) (d : off) (g : ftype * list off) : Prop := {
    ff_get : nth_error PF q' = Some g;
    ff_27 : In d dirs27;
    ff_dir : d = (0,0,0) \/ In d ds;
    ff_self : ~ (q' = q /\ d = (0,0,0));
    ff_type : fst pf = fst g;
    ff_perm : Permutation (snd pf) (map (oadd d) (snd g));
    ff_only : forall q2 d2 g2, nth_error PF q2 = Some g2 -> In d2 dirs27 -> ~ (q2 = q /\ d2 = (0,0,0)) ->
      fst pf = fst g2 -> Permutation (snd pf) (map (oadd d2) (snd g2)) -> q2 = q' /\ d2 = d;
    ff_opp : Permutation (cycle (snd pf)) (map swap (cycle (map (oadd d) (snd g))));
    ff_side : forall d0, In d0 ds -> (d = d0 <-> forall o, In o (snd pf) -> on_side d0 o = true);
    ff_ne : snd pf <> [];
    ff_cube : forall o, In o (snd pf) -> in_cube o = true
  }.

  Lemma indexed_in {A} (l : list A) q x : In (q, x) (indexed_list l) <-> nth_error l q = Some x.
  Proof.
    unfold indexed_list. split.
    - intros H. apply In_nth_error in H. destruct H as [n Hn].
      assert (n < length l)%nat.
      { assert (n < length (combine (seq 0 (length l)) l))%nat by (apply nth_error_Some; congruence).
        rewrite combine_length, seq_length in H. lia. }
      assert (X : nth_error (combine (seq 0 (length l)) l) n = Some (n, nth n l x)).
      { rewrite nth_error_nth' with (d := (0%nat, x)) by (rewrite combine_length, seq_length; lia).
        rewrite combine_nth by now rewrite seq_length. now rewrite seq_nth. }
      rewrite X in Hn. injection Hn as -> E2. rewrite <- E2. apply nth_error_nth'. assumption.
    - intros H. assert (q < length l)%nat by (apply nth_error_Some; congruence).
      apply nth_error_In with (n := q).
      rewrite nth_error_nth' with (d := (0%nat, x)) by (rewrite combine_length, seq_length; lia).
      rewrite combine_nth by now rewrite seq_length. rewrite seq_nth by assumption.
      now rewrite (nth_error_nth _ _ _ H).
  Qed.

  Lemma meets_iff f g d : meets f g d = true <-> fst f = fst g /\ Permutation (snd f) (map (oadd d) (snd g)).
  Proof. unfold meets. rewrite andb_true_iff, ftype_eqb_iff, (permb_iff _ off_eqb_iff). tauto. Qed.

  Lemma partners_in q f q' d : In (q', d) (partners PF q f) <->
    ~ (q' = q /\ d = (0,0,0)) /\ In d dirs27 /\ exists g, nth_error PF q' = Some g /\ fst f = fst g /\ Permutation (snd f) (map (oadd d) (snd g)).
  Proof.
    unfold partners. rewrite filter_In, in_flat_map. cbn [fst snd]. rewrite negb_true_iff, andb_false_iff.
    assert (HX : ((q' =? q)%nat = false \/ off_eqb d (0,0,0) = false) <-> ~ (q' = q /\ d = (0,0,0))).
    { rewrite Nat.eqb_neq. rewrite <- (off_eqb_iff d). destruct (off_eqb d (0,0,0)); [|split; [intros _ [_ X]; discriminate|auto]].
      split; [intros [H|H]; [tauto|discriminate]|]. intros H. left. tauto. }
    rewrite HX. split.
    - intros (((q2 & g) & Hg & H) & Hn). split; [exact Hn|]. cbn [fst snd] in H. apply in_map_iff in H.
      destruct H as (d2 & [= -> ->] & H). apply filter_In in H. destruct H as [Hd Hm]. apply meets_iff in Hm.
      split; [exact Hd|]. exists g. split; [now apply indexed_in|]. exact Hm.
    - intros (Hn & Hd & g & Hg & Hm). split; [|exact Hn]. exists (q', g). split; [now apply indexed_in|].
      cbn [fst snd]. apply in_map_iff. exists d. split; [reflexivity|]. apply filter_In. split; [exact Hd|]. now apply meets_iff.
  Qed.

  Lemma face_facts_ok q pf : nth_error PF q = Some pf -> exists q' d g, face_facts q pf q' d g.
  Proof.
    intros H. apply indexed_in in H. pose proof CHK as C. unfold pattern_check in C.
    apply andb_true_iff in C. destruct C as [_ C]. rewrite forallb_forall in C. specialize (C _ H).
    unfold face_check in C. cbn [fst snd] in C. fold PF in C.
    apply andb_true_iff in C. destruct C as [C Hcube]. apply andb_true_iff in C. destruct C as [C Hne].
    destruct (partners PF q pf) as [|[q' d] [|? ?]] eqn:EP; try discriminate.
    apply andb_true_iff in C. destruct C as [C Hside]. apply andb_true_iff in C. destruct C as [Hdir Hopp].
    destruct (nth_error PF q') as [g|] eqn:Eg; [|discriminate]. exists q', d, g.
    assert (HP : In (q', d) (partners PF q pf)) by (rewrite EP; now left).
    apply partners_in in HP. destruct HP as (Hself & Hd27 & g' & Eg' & Ht & Hp).
    assert (g' = g) by congruence. subst g'.
    constructor; auto.
    - apply orb_true_iff in Hdir. destruct Hdir as [Hd|Hd].
      + left. now apply off_eqb_iff.
      + right. apply existsb_exists in Hd. destruct Hd as (x & Hx & E). apply off_eqb_iff in E. now subst.
    - intros q2 d2 g2 E2 D2 N2 T2 P2.
      assert (In (q2, d2) (partners PF q pf)) as X by (apply partners_in; split; [exact N2|]; split; [exact D2|]; exists g2; auto).
      rewrite EP in X. destruct X as [[= -> ->]|[]]. auto.
    - apply (permb_iff (pair_eqb off_eqb)); [|exact Hopp].
      intros [a b] [a' b']. unfold pair_eqb. cbn [fst snd]. rewrite andb_true_iff, !off_eqb_iff.
      split; [intros [-> ->]; reflexivity|intros [= -> ->]; auto].
    - intros d0 Hd0. rewrite forallb_forall in Hside. specialize (Hside _ Hd0). apply eqb_prop in Hside.
      rewrite <- off_eqb_iff, Hside, forallb_forall. tauto.
    - intros E. rewrite E in Hne. discriminate.
    - rewrite forallb_forall in Hcube. exact Hcube.
  Qed.

  Lemma PF_cube q pf o : nth_error PF q = Some pf -> In o (snd pf) -> in_cube o = true.
  Proof. intros H. destruct (face_facts_ok q pf H) as (q' & d & g & FF). apply (ff_cube _ _ _ _ _ FF). Qed.

  Lemma PF_ne q pf : nth_error PF q = Some pf -> snd pf <> [].
  Proof. intros H. destruct (face_facts_ok q pf H) as (q' & d & g & FF). apply (ff_ne _ _ _ _ _ FF). Qed.

  (** Two faces coincide exactly when their patterns do after the displacement of their cells. *)
  Lemma coincide c c' q q' pf pf' : inbox nu nv nw c -> inbox nu nv nw c' ->
    nth_error PF q = Some pf -> nth_error PF q' = Some pf' ->
    (Permutation (map (pt c) (snd pf)) (map (pt c') (snd pf')) <->
     Permutation (snd pf) (map (oadd (osub c' c)) (snd pf'))) /\
    (Permutation (snd pf) (map (oadd (osub c' c)) (snd pf')) -> In (osub c' c) dirs27).
  Proof.
    intros Hc Hc' E E'. split; [split|].
    - intros P.
      assert (P2 : Permutation (map (oadd c) (snd pf)) (map (oadd c') (snd pf'))).
      { apply Permutation_map_inj_in with (f := pid nu nv).
        - intros a b Ha Hb Eab. apply in_map_iff in Ha, Hb. destruct Ha as (o & <- & Ho), Hb as (o' & <- & Ho').
          apply pt_inj; eauto using PF_cube.
        - now rewrite !map_map. }
      apply (Permutation_map (fun p => osub p c)) in P2. rewrite !map_map in P2.
      rewrite (map_ext _ (fun o => o)) in P2 by (intros; apply oadd_sub). rewrite map_id in P2.
      rewrite (map_ext _ (oadd (osub c' c))) in P2 by (intros; apply osub_shift). exact P2.
    - intros P. apply (Permutation_map (pt c)) in P. rewrite map_map in P.
      rewrite (map_ext (fun x => pt c (oadd (osub c' c) x)) (pt c')) in P; [exact P|]. intros o. unfold pt. now rewrite oadd_assoc, oadd_osub.
    - intros P. pose proof (PF_ne _ _ E) as Hn. destruct (snd pf) as [|o l] eqn:El; [congruence|].
      assert (Ho : in_cube o = true) by (eapply PF_cube; [exact E|]; rewrite El; now left).
      assert (Hi : In o (map (oadd (osub c' c)) (snd pf'))) by (apply (Permutation_in _ P); now left).
      apply in_map_iff in Hi. destruct Hi as (o' & Eo & Ho'). apply (PF_cube _ _ _ E') in Ho'.
      apply in_cube_iff in Ho, Ho'. subst o. unfold oadd in Ho; cbn [ox oy oz fst snd] in Ho.
      apply dirs27_in; lia.
  Qed.

  (** *** Faces of the mesh by cell and pattern face *)
  Context (t : table face).
  Context (Wt : wf_table t) (Hids : t_ids t = zrange (length cells * L)).
  Context (Hget : forall k f, t_get t (Z.of_nat k) = Ok f ->
    nth_error (flat_map (fun c => map (face_of nu nv c) PF) cells) k = Some (td f)).

  Lemma slot_length c : length (map (face_of nu nv c) PF) = L.
  Proof. apply map_length. Qed.

  Lemma slot_of a f : t_get t a = Ok f -> exists i q c pf, a = Z.of_nat (i * L + q) /\
    nth_error cells i = Some c /\ nth_error PF q = Some pf /\ f_type f = fst pf /\ f_nodes f = map (pt c) (snd pf).
  Proof.
    intros H. assert (Ha : In a (t_ids t)) by (eapply wf_get_in; eauto). rewrite Hids in Ha. apply zrange_in in Ha.
    assert (HL : L <> 0%nat) by (intros E; rewrite E in Ha; lia).
    set (k := Z.to_nat a). assert (Ek : a = Z.of_nat k) by lia. rewrite Ek in H. pose proof (Hget _ _ H) as Hk.
    assert (Ediv : k = (k / L * L + k mod L)%nat) by (rewrite Nat.mul_comm; apply Nat.div_mod; assumption).
    rewrite Ediv, nth_flat_map_const with (L := L) in Hk;
      [|intros; apply slot_length|apply Nat.mod_upper_bound; assumption].
    destruct (nth_error cells (k / L)) as [c|] eqn:Ec; [|discriminate].
    rewrite nth_error_map in Hk. destruct (nth_error PF (k mod L)) as [pf|] eqn:Ep; [|discriminate].
    cbn in Hk. injection Hk as E1 E2. exists (k / L)%nat, (k mod L)%nat, c, pf. split; [congruence|]. auto.
  Qed.

  Lemma slot_get i q c pf : nth_error cells i = Some c -> nth_error PF q = Some pf ->
    exists f, t_get t (Z.of_nat (i * L + q)) = Ok f /\ f_type f = fst pf /\ f_nodes f = map (pt c) (snd pf).
  Proof.
    intros Hc Hq. assert (Hi : (i < length cells)%nat) by (apply nth_error_Some; congruence).
    assert (HqL : (q < L)%nat) by (apply nth_error_Some; congruence).
    destruct (wf_get t (Z.of_nat (i * L + q)) Wt) as [f Hf].
    { rewrite Hids. apply zrange_in. nia. }
    exists f. split; [exact Hf|]. apply Hget in Hf.
    rewrite nth_flat_map_const with (L := L) in Hf; [|intros; apply slot_length|assumption].
    rewrite Hc, nth_error_map, Hq in Hf. cbn in Hf. injection Hf as E1 E2. auto.
  Qed.

  Lemma cells_inj i j c : nth_error cells i = Some c -> nth_error cells j = Some c -> i = j.
  Proof.
    intros Hi Hj. apply (proj1 (NoDup_nth_error cells) (box_list_NoDup nu nv nw)); [apply nth_error_Some; congruence|congruence].
  Qed.

  (** The mates of a face. *)
  Lemma mates_slot i q c pf q' d g b :
    nth_error cells i = Some c -> nth_error PF q = Some pf -> face_facts q pf q' d g ->
    (mates t (Z.of_nat (i * L + q)) b <->
     exists j, nth_error cells j = Some (oadd c d) /\ b = Z.of_nat (j * L + q')).
  Proof.
    intros Hc Hq FF. assert (Ic : inbox nu nv nw c) by (apply cells_in; eapply nth_error_In; eauto).
    destruct (slot_get i q c pf Hc Hq) as (f & Hf & Tf & Nf). split.
    - intros (Hne & f' & h & Hf' & Hh & T & P). assert (f' = f) by congruence. subst f'.
      destruct (slot_of b h Hh) as (j & q2 & c2 & pf2 & -> & Hc2 & Hq2 & Th & Nh).
      assert (Ic2 : inbox nu nv nw c2) by (apply cells_in; eapply nth_error_In; eauto).
      rewrite Nf, Nh in P. destruct (coincide c c2 q q2 pf pf2 Ic Ic2 Hq Hq2) as [K1 K2].
      apply K1 in P. pose proof (K2 P) as D.
      destruct (ff_only _ _ _ _ _ FF q2 (osub c2 c) pf2 Hq2 D) as [-> Ed].
      + intros [-> E0]. apply (proj1 (osub_zero c c2)) in E0. subst c2. rewrite (cells_inj _ _ _ Hc Hc2) in Hne. congruence.
      + congruence.
      + exact P.
      + exists j. rewrite <- Ed, oadd_osub. auto.
    - intros (j & Hc2 & ->). assert (Ic2 : inbox nu nv nw (oadd c d)) by (apply cells_in; eapply nth_error_In; eauto).
      destruct (slot_get j q' _ g Hc2 (ff_get _ _ _ _ _ FF)) as (h & Hh & Th & Nh).
      assert (Ed : osub (oadd c d) c = d) by (apply oadd_sub).
      split.
      + intros E. apply Nat2Z.inj in E.
        assert (q < L)%nat by (apply nth_error_Some; congruence).
        assert (q' < L)%nat by (apply nth_error_Some; rewrite (ff_get _ _ _ _ _ FF); discriminate).
        assert (i = j) by nia. assert (q' = q) by nia. subst j q'.
        apply (ff_self _ _ _ _ _ FF). split; [reflexivity|]. rewrite <- Ed. apply osub_zero. congruence.
      + exists f, h. split; [exact Hf|]. split; [exact Hh|]. split.
        * rewrite Tf, Th. apply (ff_type _ _ _ _ _ FF).
        * rewrite Nf, Nh. apply (coincide c (oadd c d) q q' pf g Ic Ic2 Hq (ff_get _ _ _ _ _ FF)).
          rewrite Ed. apply (ff_perm _ _ _ _ _ FF).
  Qed.

  Lemma slots_at_most_two : at_most_two t.
  Proof.
    intros a b b' M M'. pose proof M as (_ & f & _ & Hf & _).
    destruct (slot_of a f Hf) as (i & q & c & pf & -> & Hc & Hq & _).
    destruct (face_facts_ok q pf Hq) as (q' & d & g & FF).
    apply (mates_slot i q c pf q' d g _ Hc Hq FF) in M, M'.
    destruct M as (j & Hj & ->), M' as (j' & Hj' & ->). now rewrite (cells_inj _ _ _ Hj Hj').
  Qed.

  Lemma slots_opposed : opposed t.
  Proof.
    intros a b f h M Hf Hh x y.
    destruct (slot_of a f Hf) as (i & q & c & pf & -> & Hc & Hq & Tf & Nf).
    destruct (face_facts_ok q pf Hq) as (q' & d & g & FF).
    apply (mates_slot i q c pf q' d g _ Hc Hq FF) in M. destruct M as (j & Hj & ->).
    destruct (slot_get j q' _ g Hj (ff_get _ _ _ _ _ FF)) as (h' & Hh' & _ & Nh). assert (h' = h) by congruence. subst h'.
    unfold edge_count. cbn [flat_map]. rewrite !app_nil_r, Nf, Nh, !cycle_map.
    set (P := fun p : off * off => (pt c (fst p), pt c (snd p))).
    rewrite (count_perm _ (map P (map swap (cycle (map (oadd d) (snd g)))))) by (apply Permutation_map, (ff_opp _ _ _ _ _ FF)).
    assert (E : map P (map swap (cycle (map (oadd d) (snd g)))) =
                map swap (map (fun p => (pt (oadd c d) (fst p), pt (oadd c d) (snd p))) (cycle (snd g)))).
    { rewrite cycle_map, !map_map. apply map_ext. intros [u v]. unfold P, swap, pt. cbn [fst snd]. now rewrite !oadd_assoc. }
    rewrite E. apply count_map_swap.
  Qed.

  Lemma slots_reversed : rev_check pat = true -> opposed_edges t.
  Proof.
    intros RC a b f h M Hf Hh.
    destruct (slot_of a f Hf) as (i & q & c & pf & -> & Hc & Hq & Tf & Nf).
    destruct (face_facts_ok q pf Hq) as (q' & d & g & FF).
    apply (mates_slot i q c pf q' d g _ Hc Hq FF) in M. destruct M as (j & Hj & ->).
    destruct (slot_get j q' _ g Hj (ff_get _ _ _ _ _ FF)) as (h' & Hh' & _ & Nh). assert (h' = h) by congruence. subst h'.
    assert (X : In (q', d) (partners PF q pf)).
    { apply partners_in. split; [apply (ff_self _ _ _ _ _ FF)|]. split; [apply (ff_27 _ _ _ _ _ FF)|].
      exists g. split; [apply (ff_get _ _ _ _ _ FF)|]. split; [apply (ff_type _ _ _ _ _ FF)|apply (ff_perm _ _ _ _ _ FF)]. }
    unfold rev_check in RC. rewrite forallb_forall in RC. specialize (RC (q, pf)).
    assert (Hin : In (q, pf) (indexed_list (pat_faces pat))) by (eapply nth_error_In, indexed_nth; exact Hq).
    specialize (RC Hin). rewrite forallb_forall in RC. specialize (RC _ X). cbn [fst snd] in RC.
    replace (nth_error (pat_faces pat) q') with (Some g) in RC by (symmetry; exact (ff_get _ _ _ _ _ FF)).
    apply offs_eqb_eq in RC. rewrite Nf, Nh, <- map_rev, <- RC, map_map. apply map_ext. intros x. unfold pt. now rewrite oadd_assoc.
  Qed.

  Lemma slot_alone i q c pf q' d g : nth_error cells i = Some c -> nth_error PF q = Some pf -> face_facts q pf q' d g ->
    ((forall b, ~ mates t (Z.of_nat (i * L + q)) b) <-> ~ inbox nu nv nw (oadd c d)).
  Proof.
    intros Hc Hq FF. split.
    - intros H I. apply cells_in in I. apply In_nth_error in I. destruct I as [j Hj].
      apply (H (Z.of_nat (j * L + q'))). apply (mates_slot i q c pf q' d g _ Hc Hq FF). eauto.
    - intros H b M. apply (mates_slot i q c pf q' d g _ Hc Hq FF) in M. destruct M as (j & Hj & _).
      apply H, cells_in. eapply nth_error_In; eauto.
  Qed.

  Lemma slot_side i q c pf q' d g : nth_error cells i = Some c -> nth_error PF q = Some pf -> face_facts q pf q' d g ->
    (~ inbox nu nv nw (oadd c d) <->
     exists d0, In d0 ds /\ ~ inbox nu nv nw (oadd c d0) /\ forall o, In o (snd pf) -> on_side d0 o = true).
  Proof.
    intros Hc Hq FF. assert (Ic : inbox nu nv nw c) by (apply cells_in; eapply nth_error_In; eauto). split.
    - intros H. destruct (ff_dir _ _ _ _ _ FF) as [->|Hd].
      + exfalso. apply H. destruct c as [[x y] z]. unfold inbox, oadd in *; cbn [ox oy oz fst snd] in *. lia.
      + exists d. split; [exact Hd|]. split; [exact H|]. now apply (ff_side _ _ _ _ _ FF d Hd).
    - intros (d0 & Hd0 & H & Hs). apply (ff_side _ _ _ _ _ FF d0 Hd0) in Hs. now subst.
  Qed.
End Conform.

(** ** Counting boundary faces *)

Definition inboxb (nu nv nw : Z) (c : off) : bool :=
  (0 <=? ox c) && (ox c <? nu) && (0 <=? oy c) && (oy c <? nv) && (0 <=? oz c) && (oz c <? nw).
Lemma inboxb_iff nu nv nw c : inboxb nu nv nw c = true <-> inbox nu nv nw c.
Proof. unfold inboxb, inbox. rewrite !andb_true_iff, !Z.leb_le, !Z.ltb_lt. lia. Qed.

Definition b2z (b : bool) : Z := if b then 1 else 0.
Definition count_true (l : list bool) : Z := zsum (map b2z l).

Lemma count_true_filter (l : list bool) (a : nat) :
  zlen (filter (fun k => nth (k - a) l false) (seq a (length l))) = count_true l.
Proof.
  revert a. unfold count_true, zlen, zsum. induction l as [|b l IH]; intros a; cbn [length seq filter]; [reflexivity|].
  rewrite Nat.sub_diag. change (nth 0 (b :: l) false) with b.
  assert (E : filter (fun k => nth (k - a) (b :: l) false) (seq (S a) (length l)) =
              filter (fun k => nth (k - S a) l false) (seq (S a) (length l))).
  { apply filter_ext_in. intros k Hk. apply in_seq in Hk. replace (k - a)%nat with (S (k - S a)) by lia. reflexivity. }
  rewrite E. cbn [map fold_right]. specialize (IH (S a)). destruct b; cbn [length b2z]; lia.
Qed.

Lemma count_true_set (bl : list bool) (l : list Z) : NoDup l ->
  (forall a, In a l <-> exists k, a = Z.of_nat k /\ nth_error bl k = Some true) -> zlen l = count_true bl.
Proof.
  intros Hnd H. rewrite <- (count_true_filter bl 0).
  set (l' := map Z.of_nat (filter (fun k => nth (k - 0) bl false) (seq 0 (length bl)))).
  assert (P : Permutation l l').
  { apply NoDup_Permutation; [assumption| |].
    - unfold l'. apply FinFun.Injective_map_NoDup; [intros x y; lia|]. apply NoDup_filter, seq_NoDup.
    - intros a. rewrite H. unfold l'. rewrite in_map_iff. split.
      + intros (k & -> & Hk). exists k. split; [reflexivity|]. apply filter_In. rewrite Nat.sub_0_r. split.
        * apply in_seq. split; [lia|]. apply nth_error_Some. cbn. congruence.
        * now apply nth_error_nth.
      + intros (k & <- & Hk). apply filter_In in Hk. rewrite Nat.sub_0_r in Hk. destruct Hk as [Hs Hk].
        apply in_seq in Hs. exists k. split; [reflexivity|]. rewrite <- Hk. apply nth_error_nth'. lia. }
  unfold zlen. rewrite (Permutation_length P). unfold l'. now rewrite map_length.
Qed.

Lemma zsum_flat_map {A} (f : A -> list Z) l : zsum (flat_map f l) = zsum (map (fun a => zsum (f a)) l).
Proof. unfold zsum at 2. induction l as [|a l IH]; cbn; [reflexivity|]. rewrite zsum_app, IH. reflexivity. Qed.

Lemma zsum_map_add {A} (f g : A -> Z) l : zsum (map (fun a => f a + g a) l) = zsum (map f l) + zsum (map g l).
Proof. unfold zsum. induction l as [|a l IH]; cbn; lia. Qed.

Lemma zsum_swap {A B} (f : A -> B -> Z) (la : list A) (lb : list B) :
  zsum (map (fun a => zsum (map (f a) lb)) la) = zsum (map (fun b => zsum (map (fun a => f a b) la)) lb).
Proof.
  induction lb as [|b lb IH]; cbn [map].
  - unfold zsum at 2. cbn. induction la as [|a la IHa]; unfold zsum in *; cbn in *; lia.
  - change (zsum (?x :: ?l)) with (x + zsum l). rewrite <- IH, <- zsum_map_add. reflexivity.
Qed.

Lemma zsum_const {A} (f : A -> Z) (l : list A) c : (forall a, In a l -> f a = c) -> zsum (map f l) = zlen l * c.
Proof.
  unfold zsum, zlen. induction l as [|a l IH]; intros H; cbn [map fold_right length]; [lia|].
  rewrite H by now left. rewrite IH by (intros; apply H; now right). lia.
Qed.

Lemma zsum_one (p : Z -> bool) n i0 : 0 <= i0 < n -> (forall i, 0 <= i < n -> p i = true <-> i = i0) ->
  zsum (map (fun i => b2z (p i)) (upto n)) = 1.
Proof.
  intros H0 H. rewrite <- (map_map p b2z). change (zsum (map b2z (map p (upto n)))) with (count_true (map p (upto n))).
  rewrite <- (count_true_set _ [i0]); [reflexivity|constructor; [tauto|constructor]|].
  intros a. split.
  - intros [<-|[]]. exists (Z.to_nat i0). split; [lia|]. rewrite nth_error_map, upto_nth by assumption. cbn. f_equal. now apply H.
  - intros (k & -> & Hk). rewrite nth_error_map in Hk. destruct (nth_error (upto n) k) as [j|] eqn:E; [|discriminate].
    assert (k < Z.to_nat n)%nat by (rewrite <- (upto_length n); apply nth_error_Some; congruence).
    assert (j = Z.of_nat k). { unfold upto in E. rewrite zrange_nth in E by assumption. congruence. } subst j.
    cbn in Hk. injection Hk as Hk. left. symmetry. apply H; [lia|assumption].
Qed.

(** Number of cells whose neighbour in direction [d] is missing. *)
Definition missing (nu nv nw : Z) (d : off) : Z :=
  zsum (map (fun c => b2z (negb (inboxb nu nv nw (oadd c d)))) (box_list nu nv nw)).

Lemma zsum_box (f : off -> Z) nu nv nw :
  zsum (map f (box_list nu nv nw)) =
  zsum (map (fun k => zsum (map (fun j => zsum (map (fun i => f (i, j, k)) (upto nu))) (upto nv))) (upto nw)).
Proof.
  unfold box_list. rewrite map_flat_map, zsum_flat_map. f_equal. apply map_ext. intros k.
  rewrite map_flat_map, zsum_flat_map. f_equal. apply map_ext. intros j. rewrite map_map. reflexivity.
Qed.

Lemma negb_inboxb nu nv nw c : negb (inboxb nu nv nw c) = true <-> ~ inbox nu nv nw c.
Proof. rewrite <- inboxb_iff. destruct (inboxb nu nv nw c); cbn; intuition discriminate. Qed.

Lemma b2z_ext a b : (a = true <-> b = true) -> b2z a = b2z b.
Proof. destruct a, b; intuition discriminate. Qed.

Lemma missing_zero nu nv nw : missing nu nv nw (0,0,0) = 0.
Proof.
  unfold missing. rewrite (zsum_const _ _ 0); [lia|]. intros [[i j] k] H. apply box_list_in in H.
  replace (negb _) with false; [reflexivity|]. symmetry. apply not_true_iff_false. rewrite negb_inboxb.
  unfold inbox, oadd; cbn [ox oy oz fst snd]. lia.
Qed.

Lemma upto_zlen n : 0 <= n -> zlen (upto n) = n.
Proof. intros H. unfold zlen. rewrite upto_length. lia. Qed.

Lemma missing_x nu nv nw s : s = 1 \/ s = -1 -> 1 <= nu -> 0 <= nv -> 0 <= nw -> missing nu nv nw (s,0,0) = nv * nw.
Proof.
  intros Hs Hu Hv Hw. unfold missing. rewrite zsum_box.
  rewrite (zsum_const _ _ nv); [rewrite upto_zlen by lia; ring|]. intros k Hk. apply upto_in in Hk.
  rewrite (zsum_const _ _ 1); [rewrite upto_zlen by lia; ring|]. intros j Hj. apply upto_in in Hj.
  apply (zsum_one (fun i => negb (inboxb nu nv nw (oadd (i, j, k) (s, 0, 0)))) nu (if s =? 1 then nu - 1 else 0)).
  - destruct (s =? 1); lia.
  - intros i Hi. rewrite negb_inboxb. unfold inbox, oadd; cbn [ox oy oz fst snd].
    destruct Hs as [->| ->]; cbn [Z.eqb]; cbn; lia.
Qed.

Lemma missing_y nu nv nw s : s = 1 \/ s = -1 -> 0 <= nu -> 1 <= nv -> 0 <= nw -> missing nu nv nw (0,s,0) = nu * nw.
Proof.
  intros Hs Hu Hv Hw. unfold missing. rewrite zsum_box.
  rewrite (zsum_const _ _ nu); [rewrite upto_zlen by lia; ring|]. intros k Hk. apply upto_in in Hk.
  rewrite (map_ext_in _ (fun j => zsum (map (fun i : Z => b2z (j =? if s =? 1 then nv - 1 else 0)) (upto nu)))).
  2: { intros j Hj. apply upto_in in Hj. f_equal. apply map_ext_in. intros i Hi. apply upto_in in Hi. apply b2z_ext.
       rewrite negb_inboxb, Z.eqb_eq. unfold inbox, oadd; cbn [ox oy oz fst snd]. destruct Hs as [->| ->]; cbn; lia. }
  rewrite zsum_swap. rewrite (zsum_const _ _ 1); [rewrite upto_zlen by lia; ring|]. intros i _.
  apply (zsum_one (fun j => j =? if s =? 1 then nv - 1 else 0) nv (if s =? 1 then nv - 1 else 0)).
  - destruct (s =? 1); lia.
  - intros j _. apply Z.eqb_eq.
Qed.

Lemma missing_z nu nv nw s : s = 1 \/ s = -1 -> 0 <= nu -> 0 <= nv -> 1 <= nw -> missing nu nv nw (0,0,s) = nu * nv.
Proof.
  intros Hs Hu Hv Hw. unfold missing. rewrite zsum_box.
  rewrite (map_ext_in _ (fun k => zsum (map (fun _ : Z => nu * b2z (k =? if s =? 1 then nw - 1 else 0)) (upto nv)))).
  2: { intros k Hk. apply upto_in in Hk. f_equal. apply map_ext_in. intros j Hj. apply upto_in in Hj.
       rewrite (zsum_const _ _ (b2z (k =? if s =? 1 then nw - 1 else 0))); [now rewrite upto_zlen by lia|].
       intros i Hi. apply upto_in in Hi. apply b2z_ext.
       rewrite negb_inboxb, Z.eqb_eq. unfold inbox, oadd; cbn [ox oy oz fst snd]. destruct Hs as [->| ->]; cbn; lia. }
  rewrite zsum_swap. rewrite (zsum_const _ _ nu); [rewrite upto_zlen by lia; ring|]. intros j _.
  assert (E : zsum (map (fun k => b2z (k =? if s =? 1 then nw - 1 else 0)) (upto nw)) = 1).
  { apply (zsum_one (fun j => j =? if s =? 1 then nw - 1 else 0) nw (if s =? 1 then nw - 1 else 0)).
    - destruct (s =? 1); lia.
    - intros x _. apply Z.eqb_eq. }
  assert (D : forall l, zsum (map (fun k => nu * b2z (k =? if s =? 1 then nw - 1 else 0)) l) =
              nu * zsum (map (fun k => b2z (k =? if s =? 1 then nw - 1 else 0)) l)).
  { unfold zsum. induction l as [|x l IH]; cbn [map fold_right]; lia. }
  rewrite D, E. lia.
Qed.

(** ** Assembly *)

Definition outdirs (pat : pattern) : list off :=
  map (fun qf => match partners (pat_faces pat) (fst qf) (snd qf) with (_, d) :: _ => d | [] => (0,0,0) end)
    (indexed_list (pat_faces pat)).

Lemma outdirs_length pat : length (outdirs pat) = length (pat_faces pat).
Proof. unfold outdirs, indexed_list. rewrite map_length, combine_length, seq_length. apply Nat.min_id. Qed.


Lemma nodupb_off_ok l : nodupb_off l = true -> NoDup l.
Proof.
  induction l as [|x l IH]; cbn; intros H; [constructor|]. apply andb_true_iff in H. destruct H as [H1 H2].
  constructor; [|auto]. intros Hin. apply negb_true_iff in H1.
  assert (existsb (off_eqb x) l = true); [|congruence]. apply existsb_exists. exists x. split; [assumption|now apply off_eqb_iff].
Qed.

Lemma stamped_elem pat nu nv nw e : forallb elem_check pat = true -> In e (stamped pat nu nv nw) ->
  exists c p, inbox nu nv nw c /\ In p pat /\ e = stamp nu nv c p /\
    length (e_nodes e) = node_count (e_type e) /\ NoDup (e_nodes e) /\
    forall n, In n (e_nodes e) -> exists o, inbox (nu + 1) (nv + 1) (nw + 1) o /\ n = pid nu nv o.
Proof.
  intros H He. unfold stamped in He. apply in_flat_map in He. destruct He as (c & Hc & He).
  apply in_map_iff in He. destruct He as (p & <- & Hp). rewrite forallb_forall in H. pose proof (H _ Hp) as C.
  unfold elem_check in C. apply andb_true_iff in C. destruct C as [C Cn]. apply andb_true_iff in C. destruct C as [Cl Cc].
  apply Nat.eqb_eq in Cl. rewrite forallb_forall in Cc. apply nodupb_off_ok in Cn.
  assert (Ic : inbox nu nv nw c) by (destruct c as [[i j] k]; apply box_list_in in Hc; exact Hc).
  exists c, p. split; [exact Ic|]. split; [exact Hp|]. split; [reflexivity|].
  cbn [stamp e_nodes e_type]. rewrite map_length. split; [exact Cl|]. split.
  - apply NoDup_map_in; [exact Cn|]. intros a b Ha Hb E. apply Cc, in_cube_iff in Ha. apply Cc, in_cube_iff in Hb.
    unfold inbox in Ic. apply point_id_inj in E; unfold oadd in *; cbn [ox oy oz fst snd] in *; try lia.
    destruct a as [[x y] z], b as [[x' y'] z']. cbn [ox oy oz fst snd] in *. destruct E as (E1 & E2 & E3).
    apply f_equal2; [apply f_equal2|]; lia.
  - intros n Hn. apply in_map_iff in Hn. destruct Hn as (o & <- & Ho). exists (oadd c o). split; [|reflexivity].
    apply Cc, in_cube_iff in Ho. unfold inbox, oadd in *; cbn [ox oy oz fst snd]. lia.
Qed.

Theorem conform_ok pat ds nu nv nw side n tol m :
  pattern_check ds pat = true ->
  1 <= n <= int_max -> (0 <= tol)%Q -> wf_mesh m -> refs_ok m -> spread m ->
  numbered (m_elems m) (stamped pat nu nv nw) ->
  (forall c f, inbox nu nv nw c -> In f (pat_faces pat) -> snd f <> [] -> (forall o, In o (snd f) -> in_cube o = true) ->
     (side (map (fun o => pid nu nv (oadd c o)) (snd f)) <->
      exists d0, In d0 ds /\ ~ inbox nu nv nw (oadd c d0) /\ forall o, In o (snd f) -> on_side d0 o = true)) ->
  exists m' nb, generateFaces n tol m = Ok (m', nb) /\ m_nodes m' = m_nodes m /\ conforming (m_faces m') side /\
    nb = zsum (map (missing nu nv nw) (outdirs pat)) /\
    (rev_check pat = true -> opposed_edges (m_faces m')).
Proof.
  intros CHK Hn Htol W R Sp N Hside.
  assert (EC : forallb elem_check pat = true) by (unfold pattern_check in CHK; apply andb_true_iff in CHK; tauto).
  assert (Hel : forall id e, t_get (m_elems m) id = Ok e -> In e (stamped pat nu nv nw)).
  { intros id e He. destruct (numbered_get _ _ _ _ N He) as (k & _ & Hk). eapply nth_error_In; eauto. }
  assert (En : enough m).
  { intros id e He. apply Hel in He. destruct (stamped_elem _ _ _ _ _ EC He) as (c & p & _ & _ & _ & H & _). lia. }
  assert (Nd : forall id e, t_get (m_elems m) id = Ok e -> NoDup (e_nodes e)).
  { intros id e He. apply Hel in He. now destruct (stamped_elem _ _ _ _ _ EC He) as (c & p & _ & _ & _ & _ & H & _). }
  destruct (generateFaces_ok n tol m Hn Htol W R En Sp) as (m' & nb & t0 & F & E & Enn & G & P & _ & Hall).
  destruct (pairing_ok n tol m Hn Htol W R En Sp) as (m2 & nb2 & E2 & _ & W2 & _ & _ & _ & _ & Hpm & Hun & Hcount & _ & Hdiff).
  assert (m2 = m' /\ nb2 = nb) as [-> ->] by (split; congruence). clear E2.
  exists m', nb. split; [exact E|]. split; [exact Enn|].
  set (t := m_faces m') in *. set (PF := pat_faces pat). set (cells := box_list nu nv nw : list off).
  assert (EF : map td F = flat_map (fun c => map (face_of nu nv c) PF) cells).
  { rewrite (generated_list _ _ _ _ _ N G). now apply stamped_faces. }
  assert (Wt : wf_table t) by apply P.
  pose proof (gn_faces _ _ _ _ _ G) as NF.
  assert (Hids : t_ids t = zrange (length cells * length PF)).
  { rewrite (pf_ids _ _ P), (nb_ids _ _ NF). f_equal. rewrite <- (map_length td F), EF.
    apply flat_map_length_const. intros c _. apply map_length. }
  assert (Hget : forall k f, t_get t (Z.of_nat k) = Ok f ->
    nth_error (flat_map (fun c => map (face_of nu nv c) PF) cells) k = Some (td f)).
  { intros k f Hf. destruct (paired_back _ _ _ _ (nb_wf _ _ NF) P Hf) as (f0 & Hf0 & T & Nn & _).
    destruct (numbered_get _ _ _ _ NF Hf0) as (k' & Ek & Hk'). apply Nat2Z.inj in Ek. subst k'.
    rewrite <- EF, nth_error_map, Hk'. cbn. unfold td. congruence. }
  pose proof (slots_at_most_two pat ds nu nv nw CHK t Wt Hids Hget) as A2.
  pose proof (slots_opposed pat ds nu nv nw CHK t Wt Hids Hget) as Opp.
  assert (Hpair : forall a b, mates t a b -> has_pair t a b).
  { intros a b M. destruct (Hall a (ex_intro _ b M)) as [b' Hb']. rewrite (A2 a b b' M (Hpm _ _ Hb')). exact Hb'. }
  split; [|split; [|exact (slots_reversed pat ds nu nv nw CHK t Wt Hids Hget)]].
  - split; [exact A2|]. split; [exact Hpair|]. split.
    + intros a b f g M Hf Hg. split; [|intros p q; exact (Opp a b f g M Hf Hg p q)].
      exact (Hdiff Nd a b f g (Hpair _ _ M) Hf Hg).
    + intros a f Hf. assert (Ha : In a (t_ids t)) by (eapply wf_get_in; eauto). split; [|exact (Hun a Ha)].
      rewrite (Hun a Ha).
      destruct (slot_of pat nu nv nw t Wt Hids Hget a f Hf) as (i & q & c & pf & -> & Hc & Hq & _ & Nf).
      destruct (face_facts_ok pat ds nu nv CHK q pf Hq) as (q' & d & g & FF).
      rewrite (slot_alone pat ds nu nv nw CHK t Wt Hids Hget i q c pf q' d g Hc Hq FF).
      rewrite (slot_side pat ds nu nv nw i q c pf q' d g Hc Hq FF).
      rewrite Nf. symmetry. apply Hside.
      * apply cells_in. eapply nth_error_In; exact Hc.
      * eapply nth_error_In; exact Hq.
      * apply (ff_ne _ _ _ _ _ _ _ FF).
      * apply (ff_cube _ _ _ _ _ _ _ FF).
  - destruct Hcount as (l & Hl & Hlu & ->).
    set (bl := flat_map (fun c => map (fun d => negb (inboxb nu nv nw (oadd c d))) (outdirs pat)) cells).
    rewrite (count_true_set bl l Hl).
    + unfold count_true, bl. rewrite map_flat_map, zsum_flat_map. unfold missing.
      rewrite <- (zsum_swap (fun c d => b2z (negb (inboxb nu nv nw (oadd c d))))). f_equal. apply map_ext. intros c.
      now rewrite map_map.
    + intros a. rewrite Hlu.
      assert (Key : forall i q c pf, nth_error cells i = Some c -> nth_error PF q = Some pf ->
        (unpaired t (Z.of_nat (i * length PF + q)) <-> nth_error bl (i * length PF + q) = Some true)).
      { intros i q c pf Hc Hq. destruct (face_facts_ok pat ds nu nv CHK q pf Hq) as (q' & d & g & FF).
        assert (Hi : (i < length cells)%nat) by (apply nth_error_Some; congruence).
        assert (HqL : (q < length PF)%nat) by (apply nth_error_Some; congruence).
        rewrite Hun by (rewrite Hids; apply zrange_in; nia).
        etransitivity; [exact (slot_alone pat ds nu nv nw CHK t Wt Hids Hget i q c pf q' d g Hc Hq FF)|].
        unfold bl. rewrite nth_flat_map_const; [|intros; rewrite map_length; apply outdirs_length|exact HqL].
        rewrite Hc, nth_error_map. unfold outdirs. rewrite nth_error_map.
        fold PF. rewrite (indexed_nth _ _ _ Hq). cbn [option_map fst snd].
        assert (ED : match partners PF q pf with (_, d) :: _ => d | [] => (0,0,0) end = d).
        { assert (X : In (q', d) (partners PF q pf)).
          { apply (partners_in pat nu nv). split; [apply (ff_self _ _ _ _ _ _ _ FF)|]. split.
            - apply (ff_27 _ _ _ _ _ _ _ FF).
            - exists g. split; [apply (ff_get _ _ _ _ _ _ _ FF)|]. split; [apply (ff_type _ _ _ _ _ _ _ FF)|apply (ff_perm _ _ _ _ _ _ _ FF)]. }
          destruct (partners PF q pf) as [|[q2 d2] r] eqn:EP; [destruct X|].
          assert (Y : In (q2, d2) (partners PF q pf)) by (rewrite EP; now left).
          apply (partners_in pat nu nv) in Y. destruct Y as (Y1 & Y2 & g2 & Y3 & Y4 & Y5).
          now destruct (ff_only _ _ _ _ _ _ _ FF q2 d2 g2 Y3 Y2 Y1 Y4 Y5). }
        rewrite ED, <- negb_inboxb. split; [now intros ->|now intros [= ->]]. }
      split.
      * intros U. pose proof U as (f & Hf & _).
        destruct (slot_of pat nu nv nw t Wt Hids Hget a f Hf) as (i & q & c & pf & -> & Hc & Hq & _).
        exists (i * length PF + q)%nat. split; [reflexivity|]. now apply (Key i q c pf).
      * intros (k & -> & Hk).
        assert (Hlen : (k < length cells * length PF)%nat).
        { rewrite <- (flat_map_length_const (fun c => map (fun d => negb (inboxb nu nv nw (oadd c d))) (outdirs pat)) _ cells).
          - apply nth_error_Some. fold bl. congruence.
          - intros c _. rewrite map_length. apply outdirs_length. }
        destruct (wf_get t (Z.of_nat k) Wt) as [f Hf]; [rewrite Hids; apply zrange_in; lia|].
        destruct (slot_of pat nu nv nw t Wt Hids Hget _ f Hf) as (i & q & c & pf & Ek & Hc & Hq & _).
        apply Nat2Z.inj in Ek. subst k. now apply (Key i q c pf).
Qed.

(** ** Sides *)

Lemma pid_range nu nv nw c o : inbox nu nv nw c -> in_cube o = true ->
  0 <= ox c + ox o <= nu /\ 0 <= oy c + oy o <= nv /\ 0 <= oz c + oz o <= nw.
Proof. unfold inbox. intros Hc Ho. apply in_cube_iff in Ho. lia. Qed.

Lemma box_side nu nv nw c l : inbox nu nv nw c -> l <> [] -> (forall o, In o l -> in_cube o = true) ->
  (on_box_side nu nv nw (map (fun o => pid nu nv (oadd c o)) l) <->
   exists d0, In d0 unit_dirs /\ ~ inbox nu nv nw (oadd c d0) /\ forall o, In o l -> on_side d0 o = true).
Proof.
  intros Ic Hne Hcube. split.
  - assert (Hex : exists o, In o l) by (destruct l as [|o l]; [congruence|exists o; now left]). destruct Hex as [o0 Ho0].
    intros [(i & Hi & H)|[(j & Hj & H)|(k & Hk & H)]].
    + assert (X : forall o, In o l -> ox c + ox o = i).
      { intros o Ho. destruct (H (pid nu nv (oadd c o))) as (j & k & Hj & Hk & E); [apply in_map_iff; eauto|].
        pose proof (pid_range _ _ _ _ _ Ic (Hcube _ Ho)).
        apply point_id_inj in E; unfold oadd in *; cbn [ox oy oz fst snd] in *; lia. }
      pose proof (X _ Ho0). pose proof (Hcube _ Ho0) as C0. apply in_cube_iff in C0. unfold inbox in Ic.
      exists (if i =? 0 then (-1,0,0) else (1,0,0)). destruct (Z.eqb_spec i 0); (split; [cbn; tauto|]); (split; [unfold inbox, oadd; cbn [ox oy oz fst snd]; lia|]);
      intros o Ho; pose proof (X _ Ho); pose proof (Hcube _ Ho) as C; apply in_cube_iff in C; unfold on_side; cbn -[Z.mul Z.sub];
      rewrite !andb_true_r; apply Z.eqb_eq; lia.
    + assert (X : forall o, In o l -> oy c + oy o = j).
      { intros o Ho. destruct (H (pid nu nv (oadd c o))) as (i & k & Hi & Hk & E); [apply in_map_iff; eauto|].
        pose proof (pid_range _ _ _ _ _ Ic (Hcube _ Ho)).
        apply point_id_inj in E; unfold oadd in *; cbn [ox oy oz fst snd] in *; lia. }
      pose proof (X _ Ho0). pose proof (Hcube _ Ho0) as C0. apply in_cube_iff in C0. unfold inbox in Ic.
      exists (if j =? 0 then (0,-1,0) else (0,1,0)). destruct (Z.eqb_spec j 0); (split; [cbn; tauto|]); (split; [unfold inbox, oadd; cbn [ox oy oz fst snd]; lia|]);
      intros o Ho; pose proof (X _ Ho); pose proof (Hcube _ Ho) as C; apply in_cube_iff in C; unfold on_side; cbn -[Z.mul Z.sub];
      rewrite !andb_true_r; apply Z.eqb_eq; lia.
    + assert (X : forall o, In o l -> oz c + oz o = k).
      { intros o Ho. destruct (H (pid nu nv (oadd c o))) as (i & j & Hi & Hj & E); [apply in_map_iff; eauto|].
        pose proof (pid_range _ _ _ _ _ Ic (Hcube _ Ho)).
        apply point_id_inj in E; unfold oadd in *; cbn [ox oy oz fst snd] in *; lia. }
      pose proof (X _ Ho0). pose proof (Hcube _ Ho0) as C0. apply in_cube_iff in C0. unfold inbox in Ic.
      exists (if k =? 0 then (0,0,-1) else (0,0,1)). destruct (Z.eqb_spec k 0); (split; [cbn; tauto|]); (split; [unfold inbox, oadd; cbn [ox oy oz fst snd]; lia|]);
      intros o Ho; pose proof (X _ Ho); pose proof (Hcube _ Ho) as C; apply in_cube_iff in C; unfold on_side; cbn -[Z.mul Z.sub];
      rewrite ?andb_true_l; apply Z.eqb_eq; lia.
  - intros (d0 & Hd & Hout & Hs). unfold inbox, oadd in *; cbn [ox oy oz fst snd] in *.
    cbn in Hd. repeat destruct Hd as [<-|Hd]; cbn [ox oy oz fst snd] in *; try contradiction.
    all: assert (Z1 : forall o, In o l -> 0 <= ox c + ox o <= nu /\ 0 <= oy c + oy o <= nv /\ 0 <= oz c + oz o <= nw)
      by (intros o Ho; apply pid_range; auto).
    + left. exists nu. split; [now right|]. intros n Hn. apply in_map_iff in Hn. destruct Hn as (o & <- & Ho).
      exists (oy c + oy o), (oz c + oz o). pose proof (Z1 _ Ho). split; [lia|]. split; [lia|]. unfold pid, oadd; cbn [ox oy oz fst snd].
      specialize (Hs _ Ho). unfold on_side in Hs. cbn -[Z.mul Z.sub] in Hs. rewrite !andb_true_r, Z.eqb_eq in Hs. f_equal. lia.
    + left. exists 0. split; [now left|]. intros n Hn. apply in_map_iff in Hn. destruct Hn as (o & <- & Ho).
      exists (oy c + oy o), (oz c + oz o). pose proof (Z1 _ Ho). split; [lia|]. split; [lia|]. unfold pid, oadd; cbn [ox oy oz fst snd].
      specialize (Hs _ Ho). unfold on_side in Hs. cbn -[Z.mul Z.sub] in Hs. rewrite !andb_true_r, Z.eqb_eq in Hs. f_equal. lia.
    + right; left. exists nv. split; [now right|]. intros n Hn. apply in_map_iff in Hn. destruct Hn as (o & <- & Ho).
      exists (ox c + ox o), (oz c + oz o). pose proof (Z1 _ Ho). split; [lia|]. split; [lia|]. unfold pid, oadd; cbn [ox oy oz fst snd].
      specialize (Hs _ Ho). unfold on_side in Hs. cbn -[Z.mul Z.sub] in Hs. rewrite !andb_true_r, Z.eqb_eq in Hs. f_equal. lia.
    + right; left. exists 0. split; [now left|]. intros n Hn. apply in_map_iff in Hn. destruct Hn as (o & <- & Ho).
      exists (ox c + ox o), (oz c + oz o). pose proof (Z1 _ Ho). split; [lia|]. split; [lia|]. unfold pid, oadd; cbn [ox oy oz fst snd].
      specialize (Hs _ Ho). unfold on_side in Hs. cbn -[Z.mul Z.sub] in Hs. rewrite !andb_true_r, Z.eqb_eq in Hs. f_equal. lia.
    + right; right. exists nw. split; [now right|]. intros n Hn. apply in_map_iff in Hn. destruct Hn as (o & <- & Ho).
      exists (ox c + ox o), (oy c + oy o). pose proof (Z1 _ Ho). split; [lia|]. split; [lia|]. unfold pid, oadd; cbn [ox oy oz fst snd].
      specialize (Hs _ Ho). unfold on_side in Hs. cbn -[Z.mul Z.sub] in Hs. rewrite Z.eqb_eq in Hs. f_equal. lia.
    + right; right. exists 0. split; [now left|]. intros n Hn. apply in_map_iff in Hn. destruct Hn as (o & <- & Ho).
      exists (ox c + ox o), (oy c + oy o). pose proof (Z1 _ Ho). split; [lia|]. split; [lia|]. unfold pid, oadd; cbn [ox oy oz fst snd].
      specialize (Hs _ Ho). unfold on_side in Hs. cbn -[Z.mul Z.sub] in Hs. rewrite Z.eqb_eq in Hs. f_equal. lia.
Qed.

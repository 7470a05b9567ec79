(** C96: triangulating a region by an advancing front. *)
From Coq Require Import ZArith List Bool QArith Lia Lqa.
From Verif Require Import Prelude Vec ZMap Mesh_Model HashGrid_Model Face_Model Merge_Model Mesh_Spec Mesh_Proofs
  Front_Model Front_Spec Front_Proofs Front_Finish.
Import ListNotations.
Open Scope Z_scope.

(** The triangles fill exactly the region between the beams: two nodes are joined by an even number of triangle sides, except
    where an odd number of given beams joins them, where it is odd. *)
Theorem C96_boundary : forall n j1 j2 j3 tol limit fuel old em points m inner,
  (0 <= tol)%Q -> wf_table (m_nodes em) ->
  generate n j1 j2 j3 tol limit fuel old em points = Ok (Some (m, inner)) ->
  exists origin, bounded_by em m origin.
Proof.
  intros n j1 j2 j3 tol limit fuel old em points m inner Ht Wn H.
  destruct (generate_parts _ _ _ _ _ _ _ _ _ _ _ _ H) as (s & s' & m1 & m2 & m3 & Hp & Hf & H1 & H2 & H3 & ->).
  destruct (fill_ok em tol Ht _ _ _ _ _ _ _ (prepare_ok em tol _ _ _ Wn Hp) Hf) as [I Hoff].
  exact (proj1 (proj2 (finish_ok _ _ _ _ _ _ _ I Hoff H1 H2 H3))).
Qed.
Print Assumptions C96_boundary.

(** Every element is a triangle with three different corners, counter-clockwise, and its unit normal has a z above the tolerance;
    and every node of the mesh is a corner of one. *)
Theorem C96_upright : forall n j1 j2 j3 tol limit fuel old em points m inner,
  (0 <= tol)%Q -> wf_table (m_nodes em) ->
  generate n j1 j2 j3 tol limit fuel old em points = Ok (Some (m, inner)) ->
  (forall id e, t_get (m_elems m) id = Ok e -> exists p q r cp cq cr,
     e_type e = ET_TRIANGLE /\ e_nodes e = [p; q; r] /\ p <> q /\ r <> p /\ r <> q /\
     t_get (m_nodes m) p = Ok cp /\ t_get (m_nodes m) q = Ok cq /\ t_get (m_nodes m) r = Ok cr /\
     (0 < area2 cp cq cr)%Q /\ (tol * tol * norm2 (cross (vsub cq cp) (vsub cr cp)) < area2 cp cq cr * area2 cp cq cr)%Q) /\
  (forall p, In p (t_ids (m_nodes m)) -> exists id e, t_get (m_elems m) id = Ok e /\ In p (e_nodes e)).
Proof.
  intros n j1 j2 j3 tol limit fuel old em points m inner Ht Wn H.
  destruct (generate_parts _ _ _ _ _ _ _ _ _ _ _ _ H) as (s & s' & m1 & m2 & m3 & Hp & Hf & H1 & H2 & H3 & ->).
  destruct (fill_ok em tol Ht _ _ _ _ _ _ _ (prepare_ok em tol _ _ _ Wn Hp) Hf) as [I Hoff].
  destruct (finish_ok _ _ _ _ _ _ _ I Hoff H1 H2 H3) as (_ & _ & A & B). split; [|exact B].
  intros id e He. destruct (A id e He) as (p & q & r & cp & cq & cr & T & N & Gp & Gq & Gr & U).
  destruct (upright_distinct tol Ht _ _ _ _ _ _ _ Gp Gq Gr U) as (D1 & D2 & D3).
  destruct (upright_cross tol Ht _ _ _ U) as [U1 U2]. exists p, q, r, cp, cq, cr. auto 15.
Qed.
Print Assumptions C96_upright.

(** If besides no two sides run the same way between the same nodes (a beam counts as a side running backwards), the areas of the
    triangles add up to the area enclosed by the beams. *)
Theorem C96_area : forall n j1 j2 j3 tol limit fuel old em points m inner,
  (0 <= tol)%Q -> wf_table (m_nodes em) ->
  generate n j1 j2 j3 tol limit fuel old em points = Ok (Some (m, inner)) ->
  exists origin, bounded_by em m origin /\
    ((forall a b, a <> b -> (running (named origin (all_sides (m_elems m))) a b + running (beams em) b a <= 1)%nat) ->
     (total_area2 m == enclosed_area2 em)%Q).
Proof.
  intros n j1 j2 j3 tol limit fuel old em points m inner Ht Wn H.
  destruct (generate_parts _ _ _ _ _ _ _ _ _ _ _ _ H) as (s & s' & m1 & m2 & m3 & Hp & Hf & H1 & H2 & H3 & ->).
  destruct (fill_ok em tol Ht _ _ _ _ _ _ _ (prepare_ok em tol _ _ _ Wn Hp) Hf) as [I Hoff].
  destruct (finish_ok _ _ _ _ _ _ _ I Hoff H1 H2 H3) as (Wm & (origin & Bd) & A & _).
  exists origin. split; [exact Bd|]. apply area_ok; auto.
  - eapply prepare_beams; eauto.
  - intros d Hd. destruct (all_sides_in _ _ Hd) as (id & e & He & E1 & E2).
    destruct (A id e He) as (p & q & r & cp & cq & cr & _ & N & Gp & Gq & Gr & _). rewrite N in E1, E2.
    assert (Hin : forall x, In x [p; q; r] -> In x (t_ids (m_nodes (fst m3)))).
    { intros x [<-|[<-|[<-|[]]]]; [exact (wf_get_in _ _ _ Wm Gp)|exact (wf_get_in _ _ _ Wm Gq)|exact (wf_get_in _ _ _ Wm Gr)]. }
    split; apply Hin; assumption.
Qed.
Print Assumptions C96_area.

(** A boundary with an end that meets no other beam is never accepted. *)
Theorem C96_open : forall n j1 j2 j3 tol limit fuel old em points id e fid f r,
  In id (t_ids (m_elems em)) -> t_get (m_elems em) id = Ok e -> e_type e = ET_BEAM -> In fid (e_faces e) ->
  t_get (m_faces em) fid = Ok f -> f_haspair f = false ->
  generate n j1 j2 j3 tol limit fuel old em points <> Ok r.
Proof.
  intros n j1 j2 j3 tol limit fuel old em points id e fid f r Hid He Ht Hfid Hf Hpair H.
  unfold generate in H. destruct (prepare old em points) as [s| |] eqn:Hp; try discriminate. clear H.
  unfold prepare in Hp. destruct (given_nodes em) as [nodes| |]; cbn [bind] in Hp; try discriminate.
  destruct (edge_ids em) as [ids| |]; cbn [bind] in Hp; try discriminate.
  destruct (foldM (add_beam em ids) _ _) as [s0| |] eqn:Hfo; cbn [bind] in Hp; try discriminate. clear Hp.
  revert Hfo. generalize (Mesher [] [] nodes t_empty old). induction (t_ids (m_elems em)) as [|k l IH]; intros s1; [destruct Hid|].
  cbn [foldM]. destruct (add_beam em ids s1 k) as [s2| |] eqn:Ha; cbn [bind]; try discriminate.
  destruct Hid as [->|Hid]; [|now apply IH]. intros _.
  unfold add_beam in Ha. rewrite He in Ha. cbn [bind] in Ha. unfold is_beam in Ha. rewrite Ht in Ha.
  destruct (e_nodes e) as [|a [|b [|]]]; try discriminate. destruct (e_faces e) as [|fa [|fb [|]]]; try discriminate.
  assert (Hn : neighbour em ids fid = Throw) by (unfold neighbour; rewrite Hf; cbn; now rewrite Hpair).
  destruct (t_get (m_nodes em) a); cbn [bind] in Ha; try discriminate. destruct (t_get (m_nodes em) b); cbn [bind] in Ha; try discriminate.
  destruct Hfid as [->|[->|[]]]; [rewrite Hn in Ha; discriminate|].
  destruct (neighbour em ids fa); cbn [bind] in Ha; try discriminate. rewrite Hn in Ha. discriminate.
Qed.
Print Assumptions C96_open.

(** ** Concrete cases *)
Definition table_of {A} (l : list (Z * A)) : table A := fold_left (fun t x => t_add t (fst x) (snd x)) l t_empty.
Definition beam (a b : Z) : element := Element ET_BEAM [a; b] [].
Definition with_faces (m : mesh) : mesh := match generateFaces 1 (1 # 1000) m with Ok r => fst r | _ => m end.
Definition corners : list (Z * coord) := [(10, Coord 0 0 0); (11, Coord 2 0 0); (12, Coord 2 2 0); (13, Coord 0 2 0)].
Definition around : list (Z * element) := [(4, beam 10 11); (5, beam 11 12); (6, beam 12 13); (7, beam 13 10)].
(** The boundary of a square. *)
Definition square : mesh := Eval vm_compute in with_faces (Mesh (table_of corners) t_empty (table_of around)).
(** Judges that find everything and have no objection; the second kind makes a node first and prefers it. *)
Definition easy : judge := Judge (fun _ _ => false) (fun s _ => ms_tree s) (fun _ _ _ => true) (fun _ _ _ _ => true)
  (fun _ _ _ _ => 1%Q) (fun _ _ _ _ _ => true) (fun _ _ _ => Coord 1 1 0) (fun _ _ _ _ => true) (fun _ _ => true).
Definition shy : judge := Judge (fun _ _ => false) (fun s _ => ms_tree s) (fun _ _ _ => true) (fun s _ _ _ => 0 <? t_size (ms_elems s))
  (fun _ _ _ n => if n =? 14 then 1%Q else 1 # 10) (fun _ _ _ _ _ => true) (fun _ _ _ => Coord 1 1 0) (fun _ _ _ _ => true) (fun _ _ => true).
Definition triangles (r : outcome (option (mesh * list (Z * bool)))) : option (list Z * list (list Z) * Q) :=
  match r with
  | Ok (Some (m, _)) => Some (t_ids (m_nodes m), map (fun x => e_nodes (snd x)) (t_map (m_elems m)), Qred (total_area2 m))
  | _ => None end.

(** A square is cut in two triangles, or in four around a new node in the middle; the area is that of the square. *)
Example C96_case : wf_table (m_nodes square) /\
  triangles (generate 1 easy easy easy (1 # 1000) 0 50 [] square []) = Some ([0; 1; 2; 3], [[0; 1; 2]; [2; 3; 0]], 8%Q) /\
  triangles (generate 1 shy shy shy (1 # 1000) 0 50 [] square []) =
    Some ([0; 1; 2; 3; 4], [[0; 1; 4]; [1; 2; 4]; [2; 3; 4]; [3; 0; 4]], 8%Q) /\
  Qred (enclosed_area2 square) = 8%Q.
Proof.
  split; [|vm_compute; auto].
  assert (H : m_nodes square = table_of corners) by (vm_compute; reflexivity). rewrite H.
  destruct (run_adds corners) as (t & Ht & R); [repeat constructor; cbn; intuition discriminate|].
  assert (E : run (adds corners) = Ok (table_of corners)) by (vm_compute; reflexivity).
  rewrite E in Ht. injection Ht as <-. eapply repr_wf; eauto.
Qed.

(** Points given for one call stay candidates in the next one (the list is never cleared): a square that is meshed without trouble
    by a new mesher makes a mesher fail that has meshed another region with an unused interior point. *)
Theorem C96_leftover_refuted : exists (em1 : mesh) (points1 : list coord) (m1 : mesh) (inner1 : list (Z * bool)),
  generate 1 easy easy easy (1 # 1000) 0 50 [] em1 points1 = Ok (Some (m1, inner1)) /\
  triangles (generate 1 easy easy easy (1 # 1000) 0 50 [] square []) <> None /\
  generate 1 easy easy easy (1 # 1000) 0 50 inner1 square [] = Throw.
Proof.
  exists square, [Coord 1 1 0].
  destruct (generate 1 easy easy easy (1 # 1000) 0 50 [] square [Coord 1 1 0]) as [[[m1 inner1]|]| |] eqn:E;
    [|vm_compute in E; discriminate|vm_compute in E; discriminate|vm_compute in E; discriminate].
  exists m1, inner1. split; [reflexivity|]. split; [vm_compute; discriminate|].
  assert (Hi : inner1 = [(14, false)]).
  { assert (F : match generate 1 easy easy easy (1 # 1000) 0 50 [] square [Coord 1 1 0] with Ok (Some r) => snd r | _ => [] end = [(14, false)])
      by (vm_compute; reflexivity). rewrite E in F. exact F. }
  rewrite Hi. vm_compute. reflexivity.
Qed.
Print Assumptions C96_leftover_refuted.

(** The same boundary with a triangle in front of the beams. *)
Definition mixed : mesh := Eval vm_compute in
  with_faces (Mesh (table_of corners) t_empty (table_of ((1, Element ET_TRIANGLE [10; 11; 12] []) :: around))).
(** The neighbours of the beams are counted among all elements: with one triangle in front of the same four beams, meshing fails. *)
Theorem C96_other_elements_refuted :
  beams mixed = beams square /\ (forall id, t_get (m_nodes mixed) id = t_get (m_nodes square) id) /\
  triangles (generate 1 easy easy easy (1 # 1000) 0 50 [] square []) <> None /\
  generate 1 easy easy easy (1 # 1000) 0 50 [] mixed [] = Throw.
Proof.
  split; [vm_compute; reflexivity|]. split; [|split; [vm_compute; discriminate|vm_compute; reflexivity]].
  intros id. f_equal.
Qed.
Print Assumptions C96_other_elements_refuted.

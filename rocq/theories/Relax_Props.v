(** C107: moving the vertices of a triangulated surface (CStlUtils::relaxVertices). *)
From Coq Require Import ZArith List Bool QArith Reals Qreals Lia Lra.
From Verif Require Import Prelude Vec ZMap HashGrid_Proofs Mesh_Proofs HashGrid_Model Surf_Model Surf_Spec Surf_Proofs Split_Props Remesh_Model Remesh_Spec Relax_Proofs Remesh_Props.
Import ListNotations.
Open Scope Z_scope.
Ltac Zify.zify_post_hook ::= Z.div_mod_to_equations.

(** For all correctly linked surfaces whose facets are numbered 0, 1, 2, ... and in which no facet is met twice around a vertex, all sets of outlines and whatever normals are remembered: the surface stays
    together (facets linked along an edge still meet there), with the same links and the same boundary; the start of an edge with the outline flag stays in place; and no vertex leaves the convex hull
    of the vertices. *)
Theorem C107_relax : forall out memo s n, glued s -> u_ids s = zrange n -> simple_fans s ->
  exists s', relax_vertices out memo s = Ok s' /\ u_ids s' = u_ids s /\ glued s' /\
    (forall id k, across s' id k = across s id k /\ apart s' id k = apart s id k) /\
    (forall x y, rim s' x y <-> rim s x y) /\
    (forall id k, In id (u_ids s) -> 0 <= k < 3 -> out id k = true -> corner s' id k = corner s id k) /\
    (forall a b c d, (forall id k, In id (u_ids s) -> (a * cx (corner s id k) + b * cy (corner s id k) + c * cz (corner s id k) <= d)%Q) ->
       forall id k, In id (u_ids s) -> (a * cx (corner s' id k) + b * cy (corner s' id k) + c * cz (corner s' id k) <= d)%Q).
Proof.
  intros out memo s n G Ei Sf. destruct (relax_all out memo s n G Ei Sf) as (u & R & X). exists u. split; [exact R|]. destruct (rx_like _ _ u X) as (A & B & L).
  assert (K : forall id k, across u id k = across s id k /\ apart u id k = apart s id k) by (intros id k; specialize (L id k); unfold link in L; injection L as L1 L2; auto).
  split; [exact A|]. split; [|split; [exact K|split; [|split; [apply (rx_marked _ _ u X)|apply (rx_half _ _ u X)]]]].
  - split; [exact B|]. intros id k I. rewrite A in I. destruct (proj2 G id k I) as [F|(nb & l & Lk & O)]; [left; unfold free; now rewrite !(proj1 (K id k)), !(proj2 (K id k))|]. right. exists nb, l. split; [|now apply (rx_opposite _ _ u X)].
    unfold linked. now rewrite A, !(proj1 (K id k)), !(proj2 (K id k)), !(proj1 (K nb l)), !(proj2 (K nb l)).
  - intros x y. unfold rim, free. rewrite A. split; intros (id & k & I & (F1 & F2) & E1 & E2); exists id, k; [rewrite (proj1 (K id k)) in F1; rewrite (proj2 (K id k)) in F2|rewrite (proj1 (K id k)), (proj2 (K id k))]; destruct (rx_free _ _ u X id k I F1) as [C1 C2]; [rewrite <- C1, <- C2|rewrite C1, C2]; auto.
Qed.
Print Assumptions C107_relax.

(** ** Computing runs in which all normals are remembered *)
Definition blind_corner (out : Z -> Z -> bool) (i id : Z) (s : surf) (j : Z) : outcome surf :=
  _ <- u_get s id ;; if out id j then Ok s else
  ring <- fan 100 out s i id j ;;
  match ring with
  | None => Ok s
  | Some l => ps <- mapM (fun e => g <- u_get s (fst e) ;; Ok (tget (sf_v g) (snd e))) l ;; foldM (fun s e => g <- u_get s (fst e) ;; Ok (u_put s (fst e) (set_v g (snd e + 2) (mean ps)))) l s
  end.
Definition blind (out : Z -> Z -> bool) (s : surf) : outcome surf := foldM (fun s i => id <- u_id s i ;; foldM (blind_corner out i id) [0; 1; 2] s) (zrange (length (u_ids s))) s.
Definition all_known (memo : zmap coord) (ids : list Z) : bool := forallb (fun id => match zlookup id memo with Some m => negb (Qeq_bool (norm2 m) 0) | None => false end) ids.
Lemma known_turns memo u q l : (forall e g, In e l -> u_get u (fst e) = Ok g -> exists m, zlookup (fst e) memo = Some m /\ Qeq_bool (norm2 m) 0 = false) -> (forall e, In e l -> exists g, u_get u (fst e) = Ok g) ->
  exists bs, mapM (turns_over memo u q) l = Ok bs /\ existsb (fun b => b) bs = false.
Proof.
  induction l as [|e l IH]; intros H K; [exists []; split; reflexivity|]. destruct IH as (bs & E & X); [intros e' g Ie; apply H; now right|intros e' Ie; apply K; now right|]. destruct (K e (or_introl eq_refl)) as (g & Eg). destruct (H e g (or_introl eq_refl) Eg) as (m & Em & Nm).
  cbn [mapM]. unfold turns_over at 1. rewrite Eg. cbn [bind]. rewrite Em. cbn [recall]. rewrite normal_angle_same, Nm, Rabs_R0. destruct (Rlt_dec (1 / 2) 0) as [Y|_]; [lra|]. rewrite E. cbn [bind]. exists (false :: bs). split; [reflexivity|exact X].
Qed.
Lemma mapM_all {A B} (f : A -> outcome B) l r : mapM f l = Ok r -> forall x, In x l -> exists y, f x = Ok y.
Proof. revert r. induction l as [|a l IH]; intros r H x Hx; [destruct Hx|]. cbn [mapM] in H. destruct (f a) as [y| |] eqn:E; try discriminate H. cbn [bind] in H. destruct (mapM f l) as [r'| |] eqn:E'; try discriminate H. destruct Hx as [<-|Hx]; [now exists y|]. apply (IH r' eq_refl x Hx). Qed.
Definition same_keys (ids : list Z) (u : surf) : Prop := forall id g, u_get u id = Ok g -> In id ids.
Lemma same_keys_put ids u id g g' : same_keys ids u -> u_get u id = Ok g -> same_keys ids (u_put u id g').
Proof.
  intros K E id' h. unfold u_get, zat, u_put. cbn [u_map]. rewrite zlookup_insert. destruct (Z.eqb_spec id' id) as [->|]; [intros _; now apply (K id g)|]. intros H. apply (K id' h). exact H.
Qed.
Lemma blind_corner_ok out memo ids i id u j : all_known memo ids = true -> same_keys ids u -> (forall u', blind_corner out i id u j = Ok u' -> same_keys ids u') /\ (forall u', blind_corner out i id u j = Ok u' -> relax_corner out memo i id u j = Ok u').
Proof.
  intros A K. unfold blind_corner, relax_corner. destruct (u_get u id) as [f| |]; cbn [bind]; try (split; intros u' H; discriminate H). destruct (out id j); [split; intros u' [= <-]; auto|].
  destruct (fan 100 out u i id j) as [[l|]| |]; cbn [bind]; try (split; intros u' H; discriminate H); [|split; intros u' [= <-]; auto].
  destruct (mapM _ l) as [ps| |] eqn:Ep; cbn [bind]; try (split; intros u' H; discriminate H).
  assert (All : forall e, In e l -> exists g, u_get u (fst e) = Ok g) by (intros e He; destruct (mapM_all _ _ _ Ep e He) as (y & Ey); destruct (u_get u (fst e)) as [g| |]; [now exists g|discriminate Ey|discriminate Ey]).
  split.
  - intros u'. clear Ep All. revert u K. induction l as [|e l IH]; intros u K H; cbn [foldM] in H; [injection H as <-; exact K|]. destruct (u_get u (fst e)) as [g| |] eqn:Eg; cbn [bind] in H; try discriminate H. apply (IH _ (same_keys_put ids u (fst e) g _ K Eg) H).
  - intros u' H. destruct (known_turns memo u (mean ps) l) as (bs & Eb & X); [|exact All|].
    + intros e g _ Eg. assert (I := K (fst e) g Eg). unfold all_known in A. rewrite forallb_forall in A. specialize (A _ I). destruct (zlookup (fst e) memo) as [m|]; [|discriminate A]. exists m. split; [reflexivity|]. now apply negb_true_iff.
    + rewrite Eb. cbn [bind]. rewrite X. exact H.
Qed.
Lemma blind_ok out memo s s' : all_known memo (u_ids s) = true -> same_keys (u_ids s) s -> blind out s = Ok s' -> relax_vertices out memo s = Ok s'.
Proof.
  intros A K. unfold blind, relax_vertices. generalize (zrange (length (u_ids s))). set (ids := u_ids s) in *. clearbody ids. intros l. revert s K. induction l as [|i l IH]; intros u K H; cbn [foldM] in *; [exact H|].
  destruct (u_id u i) as [id| |]; cbn [bind] in *; try discriminate H.
  destruct (blind_corner out i id u 0) as [u1| |] eqn:E1; cbn [bind] in H; try discriminate H. destruct (blind_corner_ok out memo ids i id u 0 A K) as [K1 R1]. specialize (K1 u1 E1). rewrite (R1 u1 E1). cbn [bind].
  destruct (blind_corner out i id u1 1) as [u2| |] eqn:E2; cbn [bind] in H; try discriminate H. destruct (blind_corner_ok out memo ids i id u1 1 A K1) as [K2 R2]. specialize (K2 u2 E2). rewrite (R2 u2 E2). cbn [bind].
  destruct (blind_corner out i id u2 2) as [u3| |] eqn:E3; cbn [bind] in H; try discriminate H. destruct (blind_corner_ok out memo ids i id u2 2 A K2) as [K3 R3]. specialize (K3 u3 E3). rewrite (R3 u3 E3). cbn [bind]. apply (IH u3 K3 H).
Qed.
Definition keysb (s : surf) : bool := forallb (fun k => existsb (Z.eqb k) (u_ids s)) (zkeys (u_map s)).
Lemma keysb_ok s : keysb s = true -> same_keys (u_ids s) s.
Proof.
  intros H id g E. unfold keysb in H. rewrite forallb_forall in H. assert (I : In id (zkeys (u_map s))). { apply zlookup_in_keys. unfold u_get, zat in E. destruct (zlookup id (u_map s)); [discriminate|discriminate E]. }
  specialize (H id I). rewrite existsb_exists in H. destruct H as (x & Hx & Ex). apply Z.eqb_eq in Ex. now subst.
Qed.
(** ** Deciding [simple_fans] *)
Definition turn (s : surf) (c : Z * Z) : Z * Z := (across s (fst c) (snd c), (apart s (fst c) (snd c) + 2) mod 3).
Fixpoint orbit (m : nat) (s : surf) (c : Z * Z) : list (Z * Z) := match m with O => [] | S m => c :: (if across s (fst c) (snd c) =? -1 then [] else orbit m s (turn s c)) end.
Definition same_corner (a b : Z * Z) : bool := (fst a =? fst b) && (snd a =? snd b).
Definition fansb (m : nat) (s : surf) : bool := forallb (fun id => forallb (fun k => let o := orbit m s (id, k) in
  existsb (same_corner (id, k)) o && forallb (fun c => (across s (fst c) (snd c) =? -1) || existsb (same_corner (turn s c)) o) o && forallb (fun c => negb (fst c =? id) || (snd c =? k)) o) [0; 1; 2]) (u_ids s).
Lemma same_corner_ok a b : same_corner a b = true -> a = b.
Proof. destruct a, b. unfold same_corner. cbn [fst snd]. rewrite andb_true_iff, !Z.eqb_eq. intros [-> ->]. reflexivity. Qed.
Lemma fansb_ok m s : fansb m s = true -> simple_fans s.
Proof.
  intros H id k k' I Ar. unfold fansb in H. rewrite forallb_forall in H. specialize (H id I). rewrite forallb_forall in H. assert (Ik : In (k mod 3) [0; 1; 2]) by (cbn; destruct (tget_cases k) as [E|[E|E]]; rewrite E; auto). specialize (H _ Ik). cbv zeta in H. set (o := orbit m s (id, k mod 3)) in *.
  rewrite !andb_true_iff in H. destruct H as ((H1 & H2) & H3). rewrite existsb_exists in H1. rewrite forallb_forall in H2, H3.
  assert (X : forall nb l, around s id k nb l -> In (nb, l mod 3) o).
  { intros nb l A. induction A as [|nb l A IH N]; [destruct H1 as (c & Hc & E); apply same_corner_ok in E; now rewrite E|]. specialize (H2 _ IH). cbn [fst snd] in H2. assert (M : (l mod 3) mod 3 = l mod 3) by lia. rewrite (across_mod s nb _ l M) in H2. destruct (Z.eqb_spec (across s nb l) (-1)) as [E|_]; [contradiction|]. cbn [orb] in H2.
    rewrite existsb_exists in H2. destruct H2 as (c & Hc & E). apply same_corner_ok in E. unfold turn in E. cbn [fst snd] in E. rewrite (across_mod s nb _ l M), (apart_mod s nb _ l M) in E. now rewrite E. }
  specialize (H3 _ (X _ _ Ar)). cbn [fst snd] in H3. rewrite Z.eqb_refl in H3. cbn [negb orb] in H3. apply Z.eqb_eq in H3. lia.
Qed.
(** Four facets around the point [c], the corners of the quadrilateral being [a0], ..., [a3]. *)
Definition pie (c a0 a1 a2 a3 : coord) : surf :=
  u_add (u_add (u_add (u_add u_empty 0 (SFacet (c, a0, a1) (3, -1, 1) (1, -1, 2))) 1 (SFacet (c, a1, a2) (0, -1, 2) (1, -1, 2))) 2 (SFacet (c, a2, a3) (1, -1, 3) (1, -1, 2))) 3 (SFacet (c, a3, a0) (2, -1, 0) (1, -1, 2)).
Lemma pie_well c a0 a1 a2 a3 : well_stored (pie c a0 a1 a2 a3).
Proof. unfold pie. repeat (apply well_add; [| |lia]); try apply well_empty; cbn; lia. Qed.
Definition normals (s : surf) : zmap coord := fold_right (fun id m => zinsert id (raw_normal (facet s id)) m) zempty (u_ids s).
Lemma normals_right s : right (normals s) s.
Proof. intros id m. unfold normals. induction (u_ids s) as [|x l IH]; [discriminate|]. cbn [fold_right]. rewrite zlookup_insert. destruct (Z.eqb_spec id x) as [->|]; [now intros [= <-]|exact IH]. Qed.
Definition no_outline : Z -> Z -> bool := fun _ _ => false.

(** The middle of a square, at first out of place, is moved to its centre; the corners stay. *)
Example C107_case : let s := pie (pt 1 2) (pt 0 0) (pt 8 0) (pt 8 8) (pt 0 8) in
  glued s /\ u_ids s = zrange 4 /\ simple_fans s /\ right (normals s) s /\
  exists s', relax_vertices no_outline (normals s) s = Ok s' /\ forall id, In id (u_ids s') -> corner s' id 0 =v= pt 4 4 /\ corner s' id 1 = corner s id 1 /\ corner s' id 2 = corner s id 2.
Proof.
  cbv zeta. set (s := pie (pt 1 2) (pt 0 0) (pt 8 0) (pt 8 8) (pt 0 8)). split; [apply gluedb_spec; [apply pie_well|vm_compute; reflexivity]|]. split; [reflexivity|]. split; [apply (fansb_ok 5); vm_compute; reflexivity|]. split; [apply normals_right|].
  destruct (blind no_outline s) as [s'| |] eqn:E; [|vm_compute in E; discriminate E|vm_compute in E; discriminate E]. exists s'. split; [apply blind_ok; [vm_compute; reflexivity|apply keysb_ok; vm_compute; reflexivity|exact E]|].
  vm_compute in E. injection E as <-. intros id I. cbn in I. destruct I as [<-|[<-|[<-|[<-|[]]]]]; (split; [apply Qsame_spec; vm_compute; reflexivity|split; vm_compute; reflexivity]).
Qed.
(** Once the normals are remembered (checkEdges calculates them all) the test of the change of normals always passes: a facet can be turned over. Here a quadrilateral with a dent is made of four facets in a
    plane, all looking up; afterwards two look down. *)
Theorem C107_fold_refuted : exists s, glued s /\ u_ids s = zrange 4 /\ simple_fans s /\ right (normals s) s /\ (forall id, In id (u_ids s) -> (0 < cz (raw_normal (facet s id)))%Q) /\
  exists s', relax_vertices no_outline (normals s) s = Ok s' /\ (cz (raw_normal (facet s' 1)) < 0)%Q /\ (cz (raw_normal (facet s' 2)) < 0)%Q.
Proof.
  set (s := pie (pt 0 1) (pt 0 2) (pt (-10) (-10)) (pt 0 0) (pt 10 (-10))). exists s. split; [apply gluedb_spec; [apply pie_well|vm_compute; reflexivity]|]. split; [reflexivity|]. split; [apply (fansb_ok 5); vm_compute; reflexivity|]. split; [apply normals_right|].
  split; [intros id I; cbn in I; destruct I as [<-|[<-|[<-|[<-|[]]]]]; vm_compute; reflexivity|].
  destruct (blind no_outline s) as [s'| |] eqn:E; [|vm_compute in E; discriminate E|vm_compute in E; discriminate E]. exists s'. split; [apply blind_ok; [vm_compute; reflexivity|apply keysb_ok; vm_compute; reflexivity|exact E]|].
  vm_compute in E. injection E as <-. split; vm_compute; reflexivity.
Qed.
Print Assumptions C107_fold_refuted.
(** If the facets are not numbered 0, 1, 2, ... (the numbers are those of the elements of the mesh the surface is made from) the walk around a vertex is ended at the wrong facet: only some of the facets
    meeting in a vertex are changed, and the surface is torn. Here a closed tetrahedron with facets 1, 2, 3, 4. *)
Theorem C107_numbers_refuted : exists s, glued s /\ u_ids s = [1; 2; 3; 4] /\ simple_fans s /\ right (normals s) s /\ (forall id k, In id (u_ids s) -> ~ free s id k) /\
  exists s', relax_vertices no_outline (normals s) s = Ok s' /\ exists x y, net s x y = 0 /\ net s' x y <> 0.
Proof.
  set (s := tetra 1 (Coord 0 0 0) (Coord 1 0 0) (Coord 0 1 0) (Coord 0 0 1)). exists s. split; [apply gluedb_spec; [now apply tetra_well|vm_compute; reflexivity]|]. split; [reflexivity|]. split; [apply (fansb_ok 4); vm_compute; reflexivity|]. split; [apply normals_right|].
  split. { assert (X : forall id k, In id (u_ids s) -> In k [0; 1; 2] -> across s id k <> -1). { intros id k I K. cbn in I. destruct I as [<-|[<-|[<-|[<-|[]]]]], K as [<-|[<-|[<-|[]]]]; vm_compute; discriminate. }
    intros id k I [F _]. apply (X id (k mod 3) I); [cbn; destruct (tget_cases k) as [M|[M|M]]; rewrite M; auto|]. rewrite (across_mod s id (k mod 3) k) by lia. exact F. }
  destruct (blind no_outline s) as [s'| |] eqn:E; [|vm_compute in E; discriminate E|vm_compute in E; discriminate E]. exists s'. split; [apply blind_ok; [vm_compute; reflexivity|apply keysb_ok; vm_compute; reflexivity|exact E]|].
  vm_compute in E. injection E as <-. exists (Coord 0 0 0), (Coord 0 0 1). split; vm_compute; [reflexivity|discriminate].
Qed.
Print Assumptions C107_numbers_refuted.

(** C102: searching the boundary faces near a point. *)
From Coq Require Import ZArith List Bool QArith Permutation Lia Lqa.
From Verif Require Import Prelude Vec Box_Model Box_Spec HashGrid_Model HashGrid_Spec HashGrid_Proofs HashGrid_Props Search_Model.
Import ListNotations.
Open Scope Z_scope.

(** The centroid of the face with this id lies nearer to [q] than [d], and the face is on the boundary. *)
Definition near (faces : list (Z * fface)) (q : coord) (d : Q) (id : Z) : Prop :=
  exists f, In (id, f) faces /\ ff_pair f = false /\ (0 < d)%Q /\ (norm2 (vsub (ff_centroid f) q) < d * d)%Q.

Definition objects (faces : list (Z * fface)) : list (Z * coord) :=
  map (fun p => (fst p, ff_centroid (snd p))) (filter (fun p => negb (ff_pair (snd p))) faces).

Lemma face_of_in faces id f : NoDup (map fst faces) -> In (id, f) faces -> face_of faces id = Ok f.
Proof.
  unfold face_of. induction faces as [| [i g] faces IH]; [easy |]. cbn [map fst find]. intros N H. inversion_clear N as [| ? ? Hn N'].
  destruct (Z.eqb_spec i id) as [-> | D].
  - destruct H as [H | H]; [now injection H as -> |]. elim Hn. exact (in_map fst _ _ H).
  - destruct H as [H | H]; [injection H as -> ->; now elim D | now apply IH].
Qed.
Lemma build_fills n faces g : NoDup (map fst faces) -> search_build n faces g = grid_build n (grid_fill g (objects faces)).
Proof.
  intros N. unfold search_build.
  assert (K : forall l g, (forall p, In p l -> In p faces) ->
    foldM (fun g p => f <- face_of faces (fst p) ;; Ok (if ff_pair f then g else grid_add g (fst p) (ff_centroid f))) l g = Ok (grid_fill g (objects l))).
  { induction l as [| [i f] l IH]; intros g' I; [reflexivity |]. cbn [foldM fst]. rewrite (face_of_in faces i f N) by (apply I; now left). cbn [bind].
    rewrite IH by (intros; apply I; now right). unfold objects, grid_fill. cbn [filter snd]. destruct (ff_pair f); reflexivity. }
  rewrite (K faces g) by auto. reflexivity.
Qed.
Lemma norm_lt_true v d : norm_lt v d = true <-> (0 < d)%Q /\ (norm2 v < d * d)%Q.
Proof. unfold norm_lt. rewrite andb_true_iff, !Qlt_bool_iff. reflexivity. Qed.
Lemma objects_in faces id c : In (id, c) (objects faces) <-> exists f, In (id, f) faces /\ ff_pair f = false /\ c = ff_centroid f.
Proof.
  unfold objects. rewrite in_map_iff. split.
  - intros ([i f] & E & H). cbn in E. injection E as -> <-. apply filter_In in H. destruct H as [H P]. cbn in P. apply negb_true_iff in P. now exists f.
  - intros (f & H & P & ->). exists (id, f). split; [reflexivity |]. apply filter_In. split; [exact H | cbn; now rewrite P].
Qed.
Lemma objects_nodup faces : NoDup (map fst faces) -> NoDup (map fst (objects faces)).
Proof.
  unfold objects. rewrite map_map. cbn [fst]. induction faces as [| [i f] l IH]; [constructor |]. cbn [map fst filter snd]. intros N. inversion_clear N as [| ? ? Hn N'].
  destruct (ff_pair f); cbn [negb map fst]; [now apply IH |]. constructor; [| now apply IH]. intros H. apply Hn. apply in_map_iff in H. destruct H as (p & <- & H).
  apply filter_In in H. now apply in_map.
Qed.
Lemma in_range_nodup objs q tol : NoDup (map fst objs) -> NoDup (in_range objs q tol).
Proof.
  unfold in_range. induction objs as [| o l IH]; [constructor |]. cbn [map filter]. intros N. inversion_clear N as [| ? ? Hn N'].
  destruct (norm_le _ _); cbn [map]; [| now apply IH]. constructor; [| now apply IH]. intros H. apply Hn. apply in_map_iff in H. destruct H as (p & E & H).
  apply filter_In in H. rewrite <- E. now apply in_map.
Qed.
(** The second selection. *)
Lemma select_ok faces q d : NoDup (map fst faces) -> forall r out, (forall id, In id r -> exists f, In (id, f) faces) ->
  exists s, foldM (fun out id => f <- face_of faces id ;; Ok (if norm_lt (vsub (ff_centroid f) q) d then out ++ [id] else out)) r out = Ok (out ++ s) /\
    (NoDup r -> NoDup s) /\ (forall id, In id s <-> In id r /\ exists f, In (id, f) faces /\ norm_lt (vsub (ff_centroid f) q) d = true).
Proof.
  intros N. induction r as [| i r IH]; intros out I.
  - exists []. cbn. rewrite app_nil_r. split; [reflexivity |]. split; [auto |]. intros id; split; [easy | now intros [[] _]].
  - destruct (I i (or_introl eq_refl)) as (f & Hf). cbn [foldM]. rewrite (face_of_in faces i f N Hf). cbn [bind].
    assert (U : forall f', In (i, f') faces -> f' = f).
    { intros f' H'. pose proof (face_of_in faces i f N Hf) as A. rewrite (face_of_in faces i f' N H') in A. now injection A. }
    destruct (norm_lt (vsub (ff_centroid f) q) d) eqn:E.
    + destruct (IH (out ++ [i])) as (s & Es & Ns & Is); [intros; apply I; now right |]. exists (i :: s). split; [rewrite Es, <- app_assoc; reflexivity |]. split.
      * intros Nr. inversion_clear Nr as [| ? ? Hn Nr']. constructor; [| now apply Ns]. intros H. apply Is in H. now apply Hn.
      * intros id. cbn [In]. rewrite Is. split.
        -- intros [<- | [H1 H2]]; [split; [now left | eauto] | split; [now right | exact H2]].
        -- intros [[<- | H1] H2]; [now left | right; auto].
    + destruct (IH out) as (s & Es & Ns & Is); [intros; apply I; now right |]. exists s. split; [exact Es |]. split.
      * intros Nr. inversion_clear Nr. now apply Ns.
      * intros id. cbn [In]. rewrite Is. split.
        -- intros [H1 H2]. auto.
        -- intros [[<- | H1] H2]; [| auto]. destruct H2 as (f' & H' & E'). rewrite (U f' H') in E'. congruence.
Qed.

(** [n] is the number of cells per axis the grid derives from the number of faces; the theorem holds for every value. After set() and build() on a mesh
    with two boundary faces whose centroids differ, whatever the search returns are exactly the boundary faces with centroids nearer than the distance,
    each once; and it returns if there is one, or if the point lies between the extreme coordinates of the centroids. *)
Theorem C102_search : forall n g0 faces,
  1 <= n <= int_max -> NoDup (map fst faces) ->
  (exists i f j h, In (i, f) faces /\ In (j, h) faces /\ ff_pair f = false /\ ff_pair h = false /\ ~ (ff_centroid f =v= ff_centroid h)) ->
  exists g, search_build n faces (search_set g0) = Ok g /\
    (forall q d r, search_find faces g q d = Ok r -> NoDup r /\ forall id, In id r <-> near faces q d id) /\
    (forall q d id, near faces q d id -> exists r, search_find faces g q d = Ok r) /\
    (forall q d, (0 <= d)%Q ->
       (exists a b c e k l, (forall h, In h [a; b; c; e; k; l] -> exists i, In (i, h) faces /\ ff_pair h = false) /\
          (cx (ff_centroid a) <= cx q <= cx (ff_centroid b) /\ cy (ff_centroid c) <= cy q <= cy (ff_centroid e) /\ cz (ff_centroid k) <= cz q <= cz (ff_centroid l))%Q) ->
       exists r, search_find faces g q d = Ok r).
Proof.
  intros n g0 faces Hn N (i & f & j & h & Hi & Hj & Pf & Ph & D).
  destruct (C19_search_exact n g0 (objects faces) Hn) as (g & B & F1 & F2 & F3).
  { exists (i, ff_centroid f), (j, ff_centroid h). split; [apply objects_in; eauto |]. split; [apply objects_in; eauto | exact D]. }
  exists g. rewrite build_fills by exact N. split; [exact B |].
  assert (Sel : forall q d r, grid_find g [] q (d * 2) = Ok r -> exists s, search_find faces g q d = Ok s /\ NoDup s /\ forall id, In id s <-> near faces q d id).
  { intros q d r E. destruct (F1 _ _ _ _ E) as (r' & Er & Pr). cbn [app] in Er. subst r'.
    assert (I : forall id, In id r -> exists f, In (id, f) faces /\ ff_pair f = false /\ norm_le (vsub (ff_centroid f) q) (d * 2) = true).
    { intros id H. apply (Permutation_in _ Pr) in H. unfold in_range in H. apply in_map_iff in H. destruct H as ([i' c] & E' & H). cbn in E'. subst i'.
      apply filter_In in H. destruct H as [H L]. apply objects_in in H. destruct H as (f' & H1 & H2 & ->). exists f'. auto. }
    destruct (select_ok faces q d N r []) as (s & Es & Ns & Is); [intros id H; destruct (I id H) as (f' & H1 & _); eauto |].
    exists s. unfold search_find. rewrite E. cbn [bind]. split; [exact Es |]. split.
    { apply Ns. apply (Permutation_NoDup (Permutation_sym Pr)). apply in_range_nodup, objects_nodup, N. }
    intros id. rewrite Is. unfold near. split.
    - intros (H1 & f' & H2 & H3). apply norm_lt_true in H3. destruct (I id H1) as (f2 & I1 & I2 & _). exists f'. split; [exact H2 |].
      assert (f2 = f') by (pose proof (face_of_in faces id f2 N I1) as A; rewrite (face_of_in faces id f' N H2) in A; now injection A). subst f2. tauto.
    - intros (f' & H1 & H2 & H3 & H4). split; [| exists f'; split; [exact H1 | now apply norm_lt_true]].
      apply (Permutation_in _ (Permutation_sym Pr)). unfold in_range. apply in_map_iff. exists (id, ff_centroid f'). split; [reflexivity |]. apply filter_In.
      split; [apply objects_in; eauto |]. cbn [snd]. apply norm_le_true. split; [Lqa.lra | Lqa.nra]. }
  split.
  { intros q d r E. unfold search_find in E. destruct (grid_find g [] q (d * 2)) as [r0 | |] eqn:G; [| discriminate E | discriminate E].
    destruct (Sel q d r0 G) as (s & Es & Hs). unfold search_find in Es. rewrite G in Es. rewrite E in Es. injection Es as ->. exact Hs. }
  split.
  { intros q d id (f' & H1 & H2 & H3 & H4). destruct (F2 q (d * 2)%Q []) as (r & E).
    - exists (id, ff_centroid f'), (ff_centroid f'). split; [apply objects_in; eauto |]. split; [reflexivity |].
      assert (L : norm_le (vsub (ff_centroid f') q) (d * 2) = true) by (apply norm_le_true; split; [Lqa.lra | Lqa.nra]).
      apply norm_le_axes in L. unfold in_box, vsub, vadd in *; cbn [cx cy cz] in *. repeat split; Lqa.lra.
    - destruct (Sel q d r E) as (s & Es & _). eauto. }
  intros q d Hd (a & b & c & e & k & l & Ha & Hq).
  assert (O : forall h, In h [a; b; c; e; k; l] -> exists o, In o (objects faces) /\ snd o = ff_centroid h).
  { intros h' H. destruct (Ha h' H) as (i' & H1 & H2). exists (i', ff_centroid h'). split; [apply objects_in; eauto | reflexivity]. }
  destruct (O a) as (oa & Ia & Ea); [cbn; tauto |]. destruct (O b) as (ob & Ib & Eb); [cbn; tauto |]. destruct (O c) as (oc & Ic & Ec); [cbn; tauto |].
  destruct (O e) as (oe & Ie & Ee); [cbn; tauto |]. destruct (O k) as (ok & Ik & Ek); [cbn; tauto |]. destruct (O l) as (ol & Il & El); [cbn; tauto |].
  destruct (F3 q (d * 2)%Q [] q) as (r & E).
  - exists oa, ob, oc, oe, ok, ol. rewrite Ea, Eb, Ec, Ee, Ek, El. tauto.
  - unfold in_box, vsub, vadd; cbn [cx cy cz]. repeat split; Lqa.lra.
  - destruct (Sel q d r E) as (s & Es & _). eauto.
Qed.
Print Assumptions C102_search.

(** Two unit cubes side by side, seen from above: the edges at y = 0 and y = 1 and the ends, with the face between them. *)
Definition strip : list (Z * fface) :=
  let p x y := Coord x y 0 in
  [(0, FFace [p 0 0; p 1 0; p 0 0]%Q false); (1, FFace [p 1 0; p 1 1; p 1 0]%Q true); (2, FFace [p 1 1; p 0 1; p 1 1]%Q false);
   (3, FFace [p 0 1; p 0 0; p 0 1]%Q false); (4, FFace [p 1 0; p 2 0; p 1 0]%Q false); (5, FFace [p 2 0; p 2 1; p 2 0]%Q false); (6, FFace [p 2 1; p 1 1; p 2 1]%Q false)].
Example C102_case : (g <- search_build 2 strip (search_set grid_new) ;; search_find strip g (Coord 1 (1 # 4) 0) (3 # 5)) = Ok [0; 4].
Proof. vm_compute. reflexivity. Qed.

(** build() a second time without set(): faces are returned more than once. *)
Theorem C102_build_again_refuted : exists g g' r, search_build 2 strip (search_set grid_new) = Ok g /\ search_build 2 strip g = Ok g' /\
  search_find strip g' (Coord 1 (1 # 4) 0) (3 # 5) = Ok r /\ ~ NoDup r.
Proof.
  destruct (search_build 2 strip (search_set grid_new)) as [g | |] eqn:E; [| vm_compute in E; discriminate E | vm_compute in E; discriminate E].
  exists g. destruct (search_build 2 strip g) as [g' | |] eqn:E'; [| vm_compute in E; injection E as <-; vm_compute in E'; discriminate E' .. ].
  exists g'. exists (match search_find strip g' (Coord 1 (1 # 4) 0) (3 # 5) with Ok r => r | _ => [] end).
  split; [reflexivity |]. split; [reflexivity |]. vm_compute in E. injection E as <-. vm_compute in E'. injection E' as <-.
  split; [vm_compute; reflexivity |]. vm_compute. intros N. inversion_clear N as [| ? ? H _]. apply H. cbn. tauto.
Qed.
Print Assumptions C102_build_again_refuted.

(** A point far away: the search is undefined (a cell index overflows); nothing is found near by either. *)
Theorem C102_far_refuted : (g <- search_build 2 strip (search_set grid_new) ;; search_find strip g (Coord 10000000000 0 0) (1 # 2)) = UB.
Proof. vm_compute. reflexivity. Qed.
Print Assumptions C102_far_refuted.

(** All boundary faces with one centroid: build() is undefined. *)
Theorem C102_one_place_refuted : search_build 2 [(0, FFace [Coord 0 0 0; Coord 2 0 0; Coord 0 0 0] false); (1, FFace [Coord 1 1 0; Coord 1 (-1) 0; Coord 1 1 0] false)] grid_new = UB.
Proof. vm_compute. reflexivity. Qed.
Print Assumptions C102_one_place_refuted.

(** Volumes of polyhedra. *)
From Coq Require Import QArith Qabs ZArith List Bool Lia Lqa Setoid Permutation.
From Verif Require Import Prelude Vec ZMap Seg_Model Seg_Spec Seg_Proofs Seg_Lists Face_Spec Face_Proofs Grid_Model Grid_Spec Poly_Model Poly_Spec Poly_Proofs Poly_Clip.
Import ListNotations.
Open Scope Q_scope.

(** ** Closed surfaces *)
Definition ecross (pos : Z -> coord) (e : Z * Z) : coord := cross (pos (fst e)) (pos (snd e)).

Lemma vsum_perm l k : Permutation l k -> vsum l =v= vsum k.
Proof.
  unfold vsum. induction 1; cbn [fold_right]; [reflexivity|now rewrite IHPermutation|vring|etransitivity; eassumption].
Qed.

Lemma vsum_app l k : vsum (l ++ k) =v= vadd (vsum l) (vsum k).
Proof. unfold vsum. induction l as [|x l IH]; cbn [app fold_right]; [now rewrite vadd_0_l|]. rewrite IH. apply vadd_assoc. Qed.

Lemma area_edges pos f : area_vector (map pos f) =v= vscale (1#2) (vsum (map (ecross pos) (cycle f))).
Proof.
  unfold area_vector. rewrite cycle_map, map_map. reflexivity.
Qed.

Lemma areas_edges pos faces : vsum (map (fun f => area_vector (map pos f)) faces) =v= vscale (1#2) (vsum (map (ecross pos) (flat_map cycle faces))).
Proof.
  induction faces as [|f faces IH]; cbn [map flat_map].
  - cbn. vring.
  - change (vsum (?x :: ?l)) with (vadd x (vsum l)). rewrite IH, area_edges, map_app, vsum_app. vring.
Qed.

Lemma half_twice v : v =v= vopp v -> v =v= vzero.
Proof. intros (H1 & H2 & H3). cbn [vopp cx cy cz] in *. repeat split; cbn [vzero cx cy cz]; lra. Qed.

Lemma closed_areas pos faces : closed_surface faces -> vsum (map (fun f => area_vector (map pos f)) faces) =v= vzero.
Proof.
  intros H. rewrite areas_edges. set (E := flat_map cycle faces).
  assert (P : Permutation E (map swap E)).
  { apply (Permutation_count_occ edge_eq_dec). intros [a b]. rewrite count_map_swap. apply H. }
  assert (S : vsum (map (ecross pos) E) =v= vzero).
  { apply half_twice. rewrite (vsum_perm _ _ (Permutation_map (ecross pos) P)) at 1. rewrite map_map. clear P. unfold vsum.
    induction E as [|[a b] E IH]; cbn [map fold_right]; [vring|]. rewrite IH. unfold swap, ecross. cbn [fst snd]. vring. }
  rewrite S. vring.
Qed.

Lemma qsum_shift (polys : list (list coord)) r r' :
  qsum (map (fun l => dot (vsub (hd vzero l) r) (area_vector l)) polys) ==
  qsum (map (fun l => dot (vsub (hd vzero l) r') (area_vector l)) polys) + dot (vsub r' r) (vsum (map area_vector polys)).
Proof.
  unfold qsum, vsum. induction polys as [|l polys IH]; cbn [map fold_right].
  - unfold dot. cbn [vzero cx cy cz]. ring.
  - rewrite IH. rewrite dot_vadd. unfold dot. cbn [vsub cx cy cz]. ring.
Qed.

(** The enclosed volume does not depend on the point of view. *)
Lemma enclosed_shift pos faces r r' : closed_surface faces -> enclosed r (map (map pos) faces) == enclosed r' (map (map pos) faces).
Proof.
  intros H. unfold enclosed. rewrite (qsum_shift _ r r'), (map_map (map pos) area_vector), closed_areas by exact H.
  unfold dot. cbn [vzero cx cy cz]. ring.
Qed.

(** ** Building a polyhedron *)

Lemma build_gen (pos : Z -> coord) (faces : list (Z * list Z)) : forall p,
  let q := fold_left (fun p f => ph_add p (fst f) (pl_close (map pos (snd f)) 0)) faces p in
  ph_ids q = ph_ids p ++ map fst faces /\
  (zsorted (ph_map p) -> zsorted (ph_map q)) /\
  (NoDup (map fst faces) -> forall id, ph_polygon q id =
     match find (fun f => Z.eqb (fst f) id) faces with Some f => pl_close (map pos (snd f)) 0 | None => ph_polygon p id end) /\
  (forall k, In k (zkeys (ph_map q)) <-> In k (zkeys (ph_map p)) \/ In k (map fst faces)).
Proof.
  induction faces as [|f faces IH]; intros p q.
  - cbn. rewrite app_nil_r. repeat split; auto. intros [H|[]]; exact H.
  - unfold q. cbn [fold_left]. destruct (IH (ph_add p (fst f) (pl_close (map pos (snd f)) 0))) as (I1 & I2 & I3 & I4).
    split; [|split; [|split]].
    + rewrite I1. unfold ph_add. cbn [ph_ids map]. now rewrite <- app_assoc.
    + intros Hs. apply I2. unfold ph_add. cbn [ph_map]. now apply zsorted_insert.
    + intros ND id. cbn [map] in ND. inversion ND as [|? ? N1 N2]; subst. rewrite (I3 N2). cbn [find].
      destruct (Z.eqb_spec (fst f) id) as [E|E].
      * assert (Fn : find (fun f0 => Z.eqb (fst f0) id) faces = None).
        { destruct (find _ faces) as [g|] eqn:F; [|reflexivity]. apply find_some in F as [Fi Fe]. apply Z.eqb_eq in Fe.
          exfalso. apply N1. rewrite E, <- Fe. now apply in_map. }
        rewrite Fn. unfold ph_polygon, ph_add. cbn [ph_map]. rewrite E, zlookup_insert_eq. reflexivity.
      * destruct (find _ faces); [reflexivity|]. unfold ph_polygon, ph_add. cbn [ph_map]. rewrite zlookup_insert_ne by exact E. reflexivity.
    + intros k. rewrite I4. unfold ph_add. cbn [ph_map map In]. rewrite zkeys_insert_in. intuition auto.
Qed.

Lemma find_NoDup (faces : list (Z * list Z)) f : NoDup (map fst faces) -> In f faces ->
  find (fun g => Z.eqb (fst g) (fst f)) faces = Some f.
Proof.
  induction faces as [|g faces IH]; [easy|]. cbn [map find]. intros ND [->|H].
  - now rewrite Z.eqb_refl.
  - inversion ND as [|? ? N1 N2]; subst. destruct (Z.eqb_spec (fst g) (fst f)) as [E|E].
    + exfalso. apply N1. rewrite E. now apply in_map.
    + now apply IH.
Qed.

Lemma hd_close vs tol : vs <> [] -> exists l, pl_close vs tol = hd vzero vs :: l.
Proof.
  destruct vs as [|x r]; [easy|]. intros _. unfold pl_close. destruct (Nat.ltb _ _); [|now exists r].
  destruct (norm_le _ _); [now exists r|]. exists (r ++ [vtx (x :: r) 0]). reflexivity.
Qed.

Lemma planar_close vs tol : planar vs -> planar (pl_close vs tol).
Proof. intros (n & c & Hn & Hp). exists n, c. split; [exact Hn|]. intros v Hv. apply Hp. eapply pl_close_in, Hv. Qed.

Lemma visible_close vs tol : visible vs -> visible (pl_close vs tol).
Proof.
  intros (l & a & b & c & r & E & H). unfold pl_close. destruct (Nat.ltb _ _); [|exists l, a, b, c, r; auto].
  destruct (norm_le _ _); [exists l, a, b, c, r; auto|]. exists l, a, b, c, (r ++ [vtx vs 0]). split; [|exact H].
  rewrite E at 1. now rewrite <- app_assoc.
Qed.

Lemma build_volume pos faces r : NoDup (map fst faces) -> (4 <= length faces)%nat -> closed_surface (map snd faces) ->
  (forall f, In f faces -> planar (map pos (snd f)) /\ visible (map pos (snd f))) ->
  ph_volume (build pos faces) == enclosed r (map (map pos) (map snd faces)).
Proof.
  intros ND L Hc Hf. unfold ph_volume.
  destruct (build_gen pos faces ph_empty) as (I1 & I2 & I3 & I4). fold (build pos faces) in *. specialize (I3 ND).
  specialize (I2 (zsorted_empty)). cbn [ph_ids ph_empty app] in I1.
  assert (Lm : (length faces <= length (ph_map (build pos faces)))%nat).
  { rewrite <- (map_length fst faces). unfold zkeys in I4. rewrite <- (map_length fst (ph_map (build pos faces))).
    apply NoDup_incl_length; [exact ND|]. intros k Hk. apply I4. now right. }
  destruct (Nat.leb_spec 4 (length (ph_map (build pos faces)))) as [_|Hlt]; [|lia].
  rewrite I1.
  assert (Pg : forall f, In f faces -> ph_polygon (build pos faces) (fst f) = pl_close (map pos (snd f)) 0).
  { intros f Hin. rewrite I3. now rewrite (find_NoDup faces f ND Hin). }
  assert (Hne : forall f, In f faces -> map pos (snd f) <> []).
  { intros f Hin E. destruct (Hf f Hin) as [_ (l & a & b & c & rr & E' & _)]. rewrite E in E'. destruct l; discriminate. }
  destruct faces as [|f0 rest]; [cbn in L; lia|]. cbn [map].
  rewrite Pg by apply in_eq. destruct (hd_close (map pos (snd f0)) 0 (Hne _ (in_eq _ _))) as (l0 & ->).
  set (v0 := hd vzero (map pos (snd f0))).
  rewrite map_map.
  rewrite (rsum_ext _ (fun f => dot (vsub (hd vzero (map pos (snd f))) v0) (area_vector (map pos (snd f))))).
  2:{ intros f Hin. assert (Hin' : In f (f0 :: rest)) by now right.
      rewrite (Pg f Hin'). destruct (hd_close (map pos (snd f)) 0 (Hne _ Hin')) as (l & E). rewrite E at 1. cbn beta iota. 
      destruct (Hf f Hin') as [Pl Vi]. rewrite polygon_measure by (try apply planar_close; try apply visible_close; assumption).
      now rewrite area_close. }
  transitivity (enclosed v0 (map (map pos) (map snd (f0 :: rest)))).
  - unfold enclosed. cbn [map]. change (qsum (?x :: ?l)) with (x + qsum l). fold v0.
    assert (Z : dot (vsub v0 v0) (area_vector (map pos (snd f0))) == 0) by (unfold dot; cbn [vsub cx cy cz]; ring).
    rewrite Z, !map_map. unfold rsum, qsum. field.
  - apply enclosed_shift. exact Hc.
Qed.

Lemma ph_of_faces_build pos faces : ph_of_faces pos faces = build pos (combine (zrange (length faces)) faces).
Proof. reflexivity. Qed.

Lemma map_fst_combine {A B} (l : list A) (k : list B) : length l = length k -> map fst (combine l k) = l.
Proof. revert k. induction l as [|a l IH]; intros [|b k] H; cbn in *; try lia; auto. f_equal. apply IH. lia. Qed.
Lemma map_snd_combine {A B} (l : list A) (k : list B) : length l = length k -> map snd (combine l k) = k.
Proof. revert k. induction l as [|a l IH]; intros [|b k] H; cbn in *; try lia; auto. f_equal. apply IH. lia. Qed.

Lemma zrange_NoDup n : NoDup (zrange n).
Proof. unfold zrange. apply FinFun.Injective_map_NoDup; [|apply seq_NoDup]. intros a b. apply Nat2Z.inj. Qed.

Lemma zrange_len n : length (zrange n) = n. Proof. unfold zrange. now rewrite map_length, seq_length. Qed.

Lemma faces_volume pos faces r : (4 <= length faces)%nat -> closed_surface faces ->
  (forall f, In f faces -> planar (map pos f) /\ visible (map pos f)) ->
  ph_volume (ph_of_faces pos faces) == enclosed r (map (map pos) faces).
Proof.
  intros L Hc Hf. rewrite ph_of_faces_build.
  assert (Es : map snd (combine (zrange (length faces)) faces) = faces) by (apply map_snd_combine, zrange_len).
  rewrite (build_volume pos _ r).
  - now rewrite Es.
  - rewrite map_fst_combine by apply zrange_len. apply zrange_NoDup.
  - rewrite combine_length, zrange_len, Nat.min_id. exact L.
  - now rewrite Es.
  - intros f Hin. apply Hf. rewrite <- Es. now apply in_map.
Qed.

(** ** Cells *)
Lemma closed_of_perm faces : perm_check (flat_map cycle faces) (map swap (flat_map cycle faces)) = true -> closed_surface faces.
Proof.
  intros H a b. unfold edge_count. rewrite <- (count_map_swap _ b a). apply count_perm, Permutation_sym, perm_check_ok. exact H.
Qed.
Lemma tet_closed : closed_surface tet_faces. Proof. apply closed_of_perm. vm_compute. reflexivity. Qed.
Lemma prism_closed : closed_surface prism_faces. Proof. apply closed_of_perm. vm_compute. reflexivity. Qed.
Lemma hex_closed : closed_surface hex_faces. Proof. apply closed_of_perm. vm_compute. reflexivity. Qed.


Lemma wide_nonzero a b c : wide a b c -> ~ cross (vsub b a) (vsub c a) =v= vzero.
Proof.
  unfold wide. intros H E. rewrite E in H. change (norm2 vzero) with (0*0+0*0+0*0) in H.
  pose proof (sq_nonneg real_eps). lra.
Qed.

Lemma wide_plane a b c : wide a b c -> planar [a; b; c] /\ visible [a; b; c].
Proof.
  intros H. split.
  - exists (cross (vsub b a) (vsub c a)), (dot (cross (vsub b a) (vsub c a)) a). split; [now apply wide_nonzero|].
    intros v [<-|[<-|[<-|[]]]]; unfold dot; cbn [cross vsub cx cy cz]; ring.
  - exists [], a, b, c, []. auto.
Qed.

Lemma wide_plane4 a b c d : wide a b c -> vadd a c =v= vadd b d -> planar [a; b; c; d] /\ visible [a; b; c; d].
Proof.
  intros H (E1 & E2 & E3). cbn [vadd cx cy cz] in *. split.
  - exists (cross (vsub b a) (vsub c a)), (dot (cross (vsub b a) (vsub c a)) a). split; [now apply wide_nonzero|].
    assert (D : cx d == cx a + cx c - cx b /\ cy d == cy a + cy c - cy b /\ cz d == cz a + cz c - cz b) by (repeat split; lra).
    destruct D as (D1 & D2 & D3).
    intros v [<-|[<-|[<-|[<-|[]]]]]; unfold dot; cbn [cross vsub cx cy cz]; rewrite ?D1, ?D2, ?D3; ring.
  - exists [], a, b, c, [d]. auto.
Qed.

Ltac qeval := unfold enclosed, qsum, area_vector, dot; cbn [map fold_right cycle combine app hd fst snd vadd vsub vscale cross vzero cx cy cz].

Lemma tet_volume_ok a b c d : Forall (wide_face (cell_vertex [a; b; c; d])) tet_faces ->
  ph_volume (ph_of_tet [a; b; c; d]) == geo_tet_volume [a; b; c; d].
Proof.
  intros H. unfold ph_of_tet. rewrite (faces_volume _ _ vzero); [|cbn; lia|apply tet_closed|].
  - unfold tet_faces. change (map (map (cell_vertex [a; b; c; d])) _) with [[a;b;c];[b;a;d];[d;a;c];[d;c;b]].
    unfold geo_tet_volume, det3. qeval. field.
  - intros f Hf. rewrite Forall_forall in H. specialize (H f Hf). unfold tet_faces in Hf.
    repeat (destruct Hf as [<-|Hf]; [apply wide_plane; exact H|]). easy.
Qed.

Lemma wide_veq a b c a' b' c' : a =v= a' -> b =v= b' -> c =v= c' -> wide a b c -> wide a' b' c'.
Proof. unfold wide. intros Ea Eb Ec H. now rewrite <- Ea, <- Eb, <- Ec. Qed.

Lemma hex_volume_ok o u v w : Forall (wide_face (cell_vertex (corners o u v w))) hex_faces ->
  ph_volume (ph_of_hex (corners o u v w)) == geo_hex_volume (corners o u v w).
Proof.
  intros H. unfold ph_of_hex. rewrite (faces_volume _ _ o); [|cbn; lia|apply hex_closed|].
  - unfold corners, hex_faces. set (p := cell_vertex _).
    change (map (map p) _) with
      [[p 0;p 1;p 2;p 3];[p 7;p 6;p 5;p 4];[p 3;p 2;p 6;p 7];[p 5;p 1;p 0;p 4];[p 6;p 2;p 1;p 5];[p 3;p 7;p 4;p 0]]%Z.
    unfold p, cell_vertex. cbv [cell_vertex corners prism_corners Z.to_nat Pos.to_nat Pos.iter_op Nat.add nth].
    unfold geo_hex_volume. qeval. field.
  - intros f Hf. rewrite Forall_forall in H. specialize (H f Hf). unfold hex_faces in Hf.
    repeat (destruct Hf as [<-|Hf]; [apply wide_plane4; [exact H|
      unfold cell_vertex, corners; cbv [cell_vertex corners prism_corners Z.to_nat Pos.to_nat Pos.iter_op Nat.add nth]; vring]|]). easy.
Qed.

Lemma prism_volume_ok o u v w : Forall (wide_face (cell_vertex (prism_corners o u v w))) prism_faces ->
  ph_volume (ph_of_prism (prism_corners o u v w)) == geo_prism_volume (prism_corners o u v w).
Proof.
  intros H. unfold ph_of_prism. rewrite (faces_volume _ _ o); [|cbn; lia|apply prism_closed|].
  - unfold prism_corners, prism_faces. set (p := cell_vertex _).
    change (map (map p) _) with [[p 0;p 1;p 2];[p 5;p 4;p 3];[p 1;p 0;p 3;p 4];[p 2;p 1;p 4;p 5];[p 0;p 2;p 5;p 3]]%Z.
    unfold p, cell_vertex. cbv [cell_vertex corners prism_corners Z.to_nat Pos.to_nat Pos.iter_op Nat.add nth].
    unfold geo_prism_volume. qeval. field.
  - intros f Hf. rewrite Forall_forall in H. specialize (H f Hf). unfold prism_faces in Hf.
    destruct Hf as [<-|[<-|Hf]]; [apply wide_plane; exact H|apply wide_plane; exact H|].
    repeat (destruct Hf as [<-|Hf]; [apply wide_plane4; [exact H|
      unfold cell_vertex, prism_corners; cbv [cell_vertex corners prism_corners Z.to_nat Pos.to_nat Pos.iter_op Nat.add nth]; vring]|]). easy.
Qed.

Lemma cut_same p newp id h tol : exists part, fst (ph_cut p newp id h tol) = (part, part) /\ part = fst (ph_clip p newp id h tol).
Proof.
  assert (I : forall np np', fst (ph_clip p np id h tol) = fst (ph_clip p np' id h tol)).
  { intros np np'. unfold ph_clip, ph_close. destruct (Nat.ltb _ _); reflexivity. }
  unfold ph_cut. destruct (ph_clip p newp id h tol) as [q1 np1] eqn:E1. destruct (ph_clip p np1 id h tol) as [q2 np2] eqn:E2.
  exists q1. cbn [fst]. assert (q2 = q1); [|now subst]. specialize (I newp np1). rewrite E1, E2 in I. cbn in I. now symmetry.
Qed.

Lemma tet_volume_wide a b c d : wide a b c -> wide b a d -> wide d a c -> wide d c b ->
  ph_volume (ph_of_tet [a; b; c; d]) == geo_tet_volume [a; b; c; d].
Proof. intros. apply tet_volume_ok. unfold tet_faces. repeat (constructor; [assumption|]). constructor. Qed.

(** ** Translation *)
Lemma area_translate t l : area_vector (map (fun p => vadd p t) l) =v= area_vector l.
Proof.
  rewrite (area_avec t), (area_avec vzero l). destruct l as [|x r]; [reflexivity|]. cbn [map].
  rewrite !avec_pvec. rewrite map_app, !map_map. cbn [map].
  assert (G : forall r a a', a =v= a' -> pvec a (map (fun p => vsub (vadd p t) t) r ++ [vsub (vadd x t) t]) =v= pvec a' (map (fun p => vsub p vzero) r ++ [vsub x vzero])).
  { clear. induction r as [|y r IH]; intros a a' E; cbn [map app pvec].
    - rewrite E. vring.
    - rewrite (IH (vsub (vadd y t) t) (vsub y vzero)) by vring. rewrite E. vring. }
  rewrite map_app. cbn [map]. rewrite (G r (vsub (vadd x t) t) (vsub x vzero)) by vring. reflexivity.
Qed.

Lemma volume_translate pos faces t : NoDup (map fst faces) -> (4 <= length faces)%nat -> closed_surface (map snd faces) ->
  (forall f, In f faces -> planar (map pos (snd f)) /\ visible (map pos (snd f))) ->
  ph_volume (build (fun i => vadd (pos i) t) faces) == ph_volume (build pos faces).
Proof.
  intros ND L Hc Hf. rewrite (build_volume pos faces vzero), (build_volume _ faces t); try assumption.
  - unfold enclosed. rewrite (map_map (map pos)), (map_map (map _)).
    assert (E : forall fs, (forall f, In f fs -> map pos f <> []) ->
      qsum (map (fun l => dot (vsub (hd vzero (map (fun i => vadd (pos i) t) l)) t) (area_vector (map (fun i => vadd (pos i) t) l))) fs)
      == qsum (map (fun l => dot (vsub (hd vzero (map pos l)) vzero) (area_vector (map pos l))) fs)).
    { induction fs as [|f fs IH]; intros H; [reflexivity|]. unfold qsum. cbn [map fold_right]. fold qsum.
      unfold qsum in IH. rewrite IH by (intros g Hg; apply H; now right).
      assert (A : area_vector (map (fun i => vadd (pos i) t) f) =v= area_vector (map pos f)).
      { rewrite <- (map_map pos (fun p => vadd p t)). apply area_translate. }
      rewrite A. specialize (H f (or_introl eq_refl)). destruct f as [|a f]; [now contradiction H|]. cbn [map hd].
      assert (B : vsub (vadd (pos a) t) t =v= vsub (pos a) vzero) by vring. rewrite B. reflexivity. }
    rewrite E; [reflexivity|]. intros f Hi. apply in_map_iff in Hi as (g & <- & Hg). destruct (Hf g Hg) as (_ & (l & a & b & c & r & V & _)).
    rewrite V. now destruct l.
  - intros f Hi. destruct (Hf f Hi) as ((n & c & Hn & P) & (l & a & b & c' & r & V & W)). split.
    + exists n, (c + dot n t). split; [exact Hn|]. intros v Hv. apply in_map_iff in Hv as (i & <- & Hv).
      rewrite dot_vadd, (P (pos i)) by now apply in_map. reflexivity.
    + exists (map (fun p => vadd p t) l), (vadd a t), (vadd b t), (vadd c' t), (map (fun p => vadd p t) r). split.
      * rewrite <- (map_map pos (fun p => vadd p t)), V, map_app. reflexivity.
      * assert (E : cross (vsub (vadd b t) (vadd a t)) (vsub (vadd c' t) (vadd a t)) =v= cross (vsub b a) (vsub c' a)) by vring.
        rewrite E. exact W.
Qed.

(** Proofs about the octree. *)
From Coq Require Import ZArith List Bool QArith Qreduction Lia Lqa Permutation.
From Verif Require Import Prelude Vec Box_Model HashGrid_Model HashGrid_Spec Oct_Model.
Import ListNotations.
Open Scope Z_scope.

Lemma dispatch_range mid x y z : 0 <= dispatch mid x y z < 8.
Proof. unfold dispatch. repeat (destruct (Qlt_bool _ _)); lia. Qed.

Lemma zlen_nonneg {A} (l : list A) : 0 <= zlen l.
Proof. unfold zlen. lia. Qed.

(** ** One level *)
Definition pt (objs : list (Z * coord)) (i : Z) : Z * coord := nth (Z.to_nat i) objs (0, vzero).

Definition valid (objs : list (Z * coord)) (i : Z) : Prop := 0 <= i < zlen objs.

Lemma vec_get_pt objs i : valid objs i -> vec_get objs i = Ok (pt objs i).
Proof.
  intros [H1 H2]. unfold vec_get, pt. destruct (Z.ltb_spec i 0); [lia|].
  destruct (nth_error objs (Z.to_nat i)) as [o|] eqn:E.
  - now rewrite (nth_error_nth _ _ _ E).
  - apply nth_error_None in E. unfold zlen in H2. lia.
Qed.

Definition goes (objs : list (Z * coord)) (mid : coord) (j i : Z) : bool := existsb (Z.eqb j) (targets mid (snd (pt objs i))).

Lemma nth_zrange n j : (j < n)%nat -> nth_error (zrange n) j = Some (Z.of_nat j).
Proof.
  intros H. unfold zrange. rewrite nth_error_map. rewrite (nth_error_nth' _ 0%nat) by (rewrite seq_length; exact H).
  cbn. rewrite seq_nth by exact H. reflexivity.
Qed.

Lemma zrange_length n : length (zrange n) = n.
Proof. unfold zrange. now rewrite map_length, seq_length. Qed.

Lemma nth_combine {A B} (l : list A) (l' : list B) j a b :
  nth_error l j = Some a -> nth_error l' j = Some b -> nth_error (combine l l') j = Some (a, b).
Proof. revert l l'. induction j as [|j IH]; intros [|x l] [|y l'] H H'; cbn in *; try discriminate; [congruence|auto]. Qed.

(** What a node becomes when the coordinates [l] are added to it. *)
Definition with_coords (n : onode) (l : list Z) : onode :=
  let (lo, hi, mid, cs, lf, ns) := n in ONode lo hi mid (cs ++ l) lf ns.

Lemma hand_down_all objs mid cs : Forall (valid objs) cs -> forall ns, length ns = 8%nat ->
  exists ns', foldM (hand_down objs mid) cs ns = Ok ns' /\ length ns' = 8%nat /\
    forall j c, nth_error ns j = Some c ->
      nth_error ns' j = Some (with_coords c (filter (goes objs mid (Z.of_nat j)) cs)).
Proof.
  induction 1 as [|i cs Hi _ IH]; intros ns Hl.
  - exists ns. split; [reflexivity|]. split; [exact Hl|]. intros j [lo hi md cs lf n] H. rewrite H. cbn. now rewrite app_nil_r.
  - cbn [foldM]. unfold hand_down at 1. rewrite (vec_get_pt _ _ Hi). cbn [bind].
    set (ns1 := map _ _). assert (Hl1 : length ns1 = 8%nat) by (unfold ns1; rewrite map_length, combine_length, zrange_length, Hl; reflexivity).
    destruct (IH ns1 Hl1) as (ns' & E & L & A). exists ns'. split; [exact E|]. split; [exact L|].
    intros j c Hc. assert (Hj : (j < 8)%nat) by (rewrite <- Hl; apply nth_error_Some; congruence).
    pose proof (nth_combine _ _ j _ _ (nth_zrange 8 j Hj) Hc) as Hcc.
    assert (H1 : nth_error ns1 j = Some (if goes objs mid (Z.of_nat j) i then onode_add c i else c)).
    { unfold ns1. rewrite nth_error_map, Hcc. reflexivity. }
    apply A in H1. rewrite H1. f_equal. cbn [filter]. destruct (goes objs mid (Z.of_nat j) i); [|reflexivity].
    destruct c. cbn. now rewrite <- app_assoc.
Qed.

(** ** The shape of a built tree *)
Definition fresh (n : onode) : Prop := exists lo hi mid cs, n = ONode lo hi mid cs true [].

Lemma each_child_ok objs create todo : (forall c c', fresh c -> Forall (valid objs) (on_coords c) -> create c = Ok (Some c') ->
      on_coords c' = on_coords c \/ on_coords c' = []) ->
  forall done cs lf done' cs' lf', Forall (fun c => fresh c /\ Forall (valid objs) (on_coords c)) todo ->
  each_child create todo done cs lf = Ok (Some (done', cs', lf')) ->
  exists new, done' = done ++ new /\ Forall2 (fun c c' => (on_coords c' = on_coords c \/ on_coords c' = [])) todo new /\
    (cs' = cs \/ cs' = []) /\ (lf' = lf \/ lf' = false).
Proof.
  intros Hc. induction todo as [|c todo IH]; intros done cs lf done' cs' lf' Hf H; cbn -[zlen] in H.
  - injection H as <- <- <-. exists []. rewrite app_nil_r. auto.
  - inversion Hf as [|? ? [F V] Hf']; subst. destruct (_ && _).
    + destruct (create c) as [[c'|]| |] eqn:E; try discriminate H. cbn in H.
      destruct (IH _ _ _ _ _ _ Hf' H) as (new & -> & F2 & A & B). exists (c' :: new).
      split; [now rewrite <- app_assoc|]. split; [constructor; [exact (Hc c c' F V E)|exact F2]|].
      split; [destruct A; auto|destruct B; auto].
    + destruct (IH _ _ _ _ _ _ Hf' H) as (new & -> & F2 & A & B). exists (c :: new).
      split; [now rewrite <- app_assoc|]. split; [constructor; [|exact F2]|split; assumption].
      destruct F as (lo & hi & mid & cs0 & ->). auto.
Qed.

Lemma children_fresh objs lo hi mid cs : 
  let ns0 := map (fun c => create_node (snd c) lo hi mid (fst c)) (combine (zrange 8) (resize8 [])) in
  Forall (valid objs) cs ->
  exists ns1, foldM (hand_down objs mid) cs ns0 = Ok ns1 /\ length ns1 = 8%nat /\
    Forall (fun c => fresh c /\ Forall (valid objs) (on_coords c)) ns1 /\
    forall j, (j < 8)%nat -> exists c, nth_error ns1 j = Some c /\ on_coords c = filter (goes objs mid (Z.of_nat j)) cs.
Proof.
  intros ns0 V. destruct (hand_down_all objs mid cs V ns0 eq_refl) as (ns1 & E & L & A).
  exists ns1. split; [exact E|]. split; [exact L|].
  assert (F0 : forall j, (j < 8)%nat -> exists lo' hi' mid', nth_error ns0 j = Some (ONode lo' hi' mid' [] true [])).
  { intros j Hj. do 8 (destruct j as [|j]; [do 3 eexists; reflexivity|]). lia. }
  assert (G : forall j, (j < 8)%nat -> exists c, nth_error ns1 j = Some c /\ fresh c /\ on_coords c = filter (goes objs mid (Z.of_nat j)) cs).
  { intros j Hj. destruct (F0 j Hj) as (l' & h' & m' & H0). apply A in H0. eexists. split; [exact H0|].
    cbn. split; [do 4 eexists; reflexivity|reflexivity]. }
  split.
  - apply Forall_forall. intros c Hc. apply In_nth_error in Hc. destruct Hc as [j Hj].
    assert (Lj : (j < 8)%nat) by (rewrite <- L; apply nth_error_Some; congruence).
    destruct (G j Lj) as (c' & E' & F & O). rewrite Hj in E'. injection E' as <-. split; [exact F|].
    rewrite O. rewrite Forall_forall in *. intros i Hi. apply filter_In in Hi. apply V, Hi.
  - intros j Hj. destruct (G j Hj) as (c & E' & _ & O). eauto.
Qed.

Lemma create_ok fuel : forall objs lo hi mid cs t, Forall (valid objs) cs ->
  create_recursive fuel objs (ONode lo hi mid cs true []) = Ok (Some t) ->
  (on_coords t = cs \/ on_coords t = []) /\
  exists cs' lf' ns, t = ONode lo hi mid cs' lf' ns /\ length ns = 8%nat /\
    forall j, (j < 8)%nat -> exists c, nth_error ns j = Some c /\
      (on_coords c = filter (goes objs mid (Z.of_nat j)) cs \/ on_coords c = []).
Proof.
  induction fuel as [|fuel IH]; intros objs lo hi mid cs t V H; [discriminate H|].
  cbn [create_recursive] in H. destruct (children_fresh objs lo hi mid cs V) as (ns1 & E & L & F & A). rewrite E in H. cbn [bind] in H.
  destruct (each_child _ ns1 [] cs true) as [[[[ns2 cs'] lf']|]| |] eqn:Ec; try discriminate H. injection H as <-.
  apply (each_child_ok objs) in Ec; [|clear - IH|exact F].
  2:{ intros c c' (l' & h' & m' & cs0 & ->) V' H'. destruct (IH _ _ _ _ _ _ V' H') as (O & _). auto. }
  destruct Ec as (new & -> & F2 & C & B). cbn [app].
  assert (L2 : length new = 8%nat) by (rewrite <- L; symmetry; clear - F2; induction F2; cbn; congruence).
  split; [exact C|]. exists cs', lf', new. split; [reflexivity|]. split; [exact L2|]. intros j Hj. destruct (A j Hj) as (c & E1 & O).
  assert (X : exists c', nth_error new j = Some c' /\ (on_coords c' = on_coords c \/ on_coords c' = [])).
    { clear - F2 E1. revert j E1. induction F2 as [|a b l l' Hab _ IH]; intros [|j] E1; cbn in *; try discriminate.
      - injection E1 as <-. eauto.
      - apply IH, E1. }
    destruct X as (c' & E2 & O'). exists c'. split; [exact E2|]. rewrite O in O'. exact O'.
Qed.

(** Small sets are not subdivided. *)
Lemma each_child_small create todo : forall done cs lf, Forall (fun c => zlen (on_coords c) <= max_per_node) todo ->
  each_child create todo done cs lf = Ok (Some (done ++ todo, cs, lf)).
Proof.
  induction todo as [|c todo IH]; intros done cs lf H; cbn -[zlen max_per_node]; [now rewrite app_nil_r|].
  inversion H as [|? ? H1 H2]; subst. replace (zlen (on_coords c) >? max_per_node) with false.
  - rewrite andb_false_r. rewrite IH by exact H2. now rewrite <- app_assoc.
  - symmetry. rewrite Z.gtb_ltb. apply Z.ltb_ge. exact H1.
Qed.

Lemma filter_zlen {A} f (l : list A) : zlen (filter f l) <= zlen l.
Proof. unfold zlen. induction l as [|a l IH]; [reflexivity|]. cbn [filter]. destruct (f a); cbn [length]; lia. Qed.

Lemma create_small fuel objs lo hi mid cs : Forall (valid objs) cs -> zlen cs <= max_per_node ->
  exists ns, create_recursive (S fuel) objs (ONode lo hi mid cs true []) = Ok (Some (ONode lo hi mid cs true ns)) /\ length ns = 8%nat /\
    forall j, (j < 8)%nat -> exists c, nth_error ns j = Some c /\ on_coords c = filter (goes objs mid (Z.of_nat j)) cs.
Proof.
  intros V S. cbn [create_recursive]. destruct (children_fresh objs lo hi mid cs V) as (ns1 & E & L & F & A). rewrite E. cbn [bind].
  exists ns1. split; [|split; [exact L|exact A]]. rewrite each_child_small; [reflexivity|].
  apply Forall_forall. intros c Hc. apply In_nth_error in Hc. destruct Hc as [j Hj].
  assert (Lj : (j < 8)%nat) by (rewrite <- L; apply nth_error_Some; congruence).
  destruct (A j Lj) as (c' & E' & O). rewrite Hj in E'. injection E' as <-. rewrite O.
  pose proof (filter_zlen (goes objs mid (Z.of_nat j)) cs). lia.
Qed.

(** ** Search *)
Lemma valid_range objs : Forall (valid objs) (zrange (length objs)).
Proof.
  apply Forall_forall. intros i Hi. unfold zrange in Hi. apply in_map_iff in Hi. destruct Hi as (k & <- & Hk).
  apply in_seq in Hk. unfold valid, zlen. lia.
Qed.

Definition near (objs : list (Z * coord)) (q : coord) (tol : Q) (i : Z) : bool := norm_le (vsub (snd (pt objs i)) q) tol.

Lemma scan_ok objs q tol l : Forall (valid objs) l -> forall out,
  foldM (fun out i => o <- vec_get objs i ;; Ok (if norm_le (vsub (snd o) q) tol then out ++ [fst o] else out)) l out =
  Ok (out ++ map (fun i => fst (pt objs i)) (filter (near objs q tol) l)).
Proof.
  induction 1 as [|i l Hi _ IH]; intros out; cbn [foldM]; [now rewrite app_nil_r|].
  rewrite (vec_get_pt _ _ Hi). cbn [bind]. rewrite IH. cbn [filter]. unfold near at 2.
  destruct (norm_le _ _); [|reflexivity]. cbn [map]. now rewrite <- app_assoc.
Qed.

Lemma in_range_index objs q tol :
  in_range objs q tol = map (fun i => fst (pt objs i)) (filter (near objs q tol) (zrange (length objs))).
Proof.
  assert (G : forall pre l, map fst (filter (fun o => norm_le (vsub (snd o) q) tol) l) =
    map (fun i => fst (pt (pre ++ l) i)) (filter (near (pre ++ l) q tol) (map Z.of_nat (seq (length pre) (length l))))).
  { intros pre l. revert pre. induction l as [|a l IH]; intros pre; [reflexivity|].
    cbn [filter length seq map]. assert (E : pt (pre ++ a :: l) (Z.of_nat (length pre)) = a).
    { unfold pt. rewrite Nat2Z.id, app_nth2 by lia. now rewrite Nat.sub_diag. }
    unfold near at 1. rewrite E. specialize (IH (pre ++ [a])). rewrite <- app_assoc in IH. cbn [app] in IH.
    rewrite app_length in IH. cbn [length] in IH. rewrite Nat.add_1_r in IH.
    destruct (norm_le _ _); cbn [map]; rewrite IH; [now rewrite E|reflexivity]. }
  apply (G [] objs).
Qed.

Lemma split_filter {A} (P T : A -> bool) l : Permutation (filter P l) (filter P (filter T l) ++ filter P (filter (fun x => negb (T x)) l)).
Proof.
  induction l as [|a l IH]; [constructor|]. cbn [filter]. destruct (T a) eqn:Ta; cbn [negb filter]; destruct (P a) eqn:Pa; cbn; auto.
  rewrite IH. apply Permutation_middle.
Qed.

Lemma fill_objs t objs : oct_fill t objs = Octree (o_objs t ++ objs) (o_root t) (o_box t).
Proof.
  unfold oct_fill. revert t. induction objs as [|o objs IH]; intros t; cbn; [rewrite app_nil_r; now destruct t|].
  rewrite IH. unfold oct_add. cbn. rewrite <- app_assoc. cbn. destruct o. reflexivity.
Qed.

(** What find does on a tree whose root has eight children. *)
Lemma find_child objs lo hi mid cs lf ns b out q tol r :
  oct_find (Octree objs (ONode lo hi mid cs lf ns) b) out q tol = Ok r ->
  exists c, nth_error ns (Z.to_nat (dispatch mid (cx q) (cy q) (cz q))) = Some c /\
    foldM (fun out i => o <- vec_get objs i ;; Ok (if norm_le (vsub (snd o) q) tol then out ++ [fst o] else out)) (on_coords c) out = Ok r.
Proof.
  unfold oct_find. cbn [o_root o_objs find_recursive]. intros H.
  destruct (if lf then _ else _); try discriminate H. cbn [bind] in H. unfold vec_get at 1 in H.
  destruct (_ <? 0); [discriminate H|]. destruct (nth_error ns _) as [c|] eqn:E; [|discriminate H]. cbn [bind] in H. eauto.
Qed.

Lemma oct_sound fuel objs t q tol out r : oct_build fuel (oct_fill oct_new objs) = Ok (Some t) ->
  oct_find t out q tol = Ok r ->
  exists new more, r = out ++ new /\ Permutation (in_range objs q tol) (new ++ more).
Proof.
  rewrite fill_objs. unfold oct_build. cbn [o_objs o_root o_box oct_new app onode_new]. intros H Hf.
  destruct (create_recursive _ _ _) as [[root|]| |] eqn:E; try discriminate H. injection H as <-.
  pose proof (valid_range objs) as V.
  apply create_ok in E; [|exact V]. destruct E as (_ & cs' & lf' & ns & -> & L & A).
  apply find_child in Hf. destruct Hf as (c & Hc & Hs).
  set (mid := half_way _ _) in *. set (loc := dispatch mid (cx q) (cy q) (cz q)) in *.
  pose proof (dispatch_range mid (cx q) (cy q) (cz q)) as R. fold loc in R.
  destruct (A (Z.to_nat loc)) as (c' & Hc' & O); [lia|]. rewrite Hc in Hc'. injection Hc' as <-.
  rewrite in_range_index. destruct O as [O|O]; rewrite O in Hs.
  - rewrite scan_ok in Hs.
    2:{ apply Forall_forall. intros i Hi. apply filter_In in Hi. rewrite Forall_forall in V. apply V, Hi. }
    injection Hs as <-. eexists. eexists. split; [reflexivity|]. rewrite <- map_app. apply Permutation_map. apply split_filter.
  - cbn in Hs. injection Hs as <-. exists [], (map (fun i => fst (pt objs i)) (filter (near objs q tol) (zrange (length objs)))).
    split; [now rewrite app_nil_r|reflexivity].
Qed.

(** ** Up to 1000 points and a tolerance of at most one epsilon *)
Lemma Qlt_bool_iff x y : Qlt_bool x y = true <-> (x < y)%Q.
Proof.
  unfold Qlt_bool. split; intros H.
  - apply negb_true_iff in H. apply Qnot_le_lt. intros C. apply Qle_bool_iff in C. congruence.
  - apply negb_true_iff. apply not_true_is_false. intros C. apply Qle_bool_iff in C. lra.
Qed.

Lemma side p q m : (- real_eps <= p - q <= real_eps)%Q ->
  exists s, In s [p - real_eps; p + real_eps]%Q /\ Qlt_bool s m = Qlt_bool q m.
Proof.
  intros H. destruct (Qlt_bool q m) eqn:E.
  - apply Qlt_bool_iff in E. exists (p - real_eps)%Q. split; [now left|]. apply Qlt_bool_iff. lra.
  - exists (p + real_eps)%Q. split; [right; now left|]. apply not_true_is_false. intros C. apply Qlt_bool_iff in C.
    assert (X : ~ (q < m)%Q) by (intros X; apply Qlt_bool_iff in X; congruence). lra.
Qed.

Lemma near_goes objs mid q tol i : (tol <= real_eps)%Q -> near objs q tol i = true ->
  goes objs mid (dispatch mid (cx q) (cy q) (cz q)) i = true.
Proof.
  intros Ht H. unfold near in H. apply norm_le_axes in H. set (p := snd (pt objs i)) in *. unfold vsub in H. cbn in H.
  destruct H as ((X1 & X2) & (Y1 & Y2) & Z1 & Z2).
  destruct (side (cx p) (cx q) (cx mid)) as (x & Ix & Ex); [lra|].
  destruct (side (cy p) (cy q) (cy mid)) as (y & Iy & Ey); [lra|].
  destruct (side (cz p) (cz q) (cz mid)) as (z & Iz & Ez); [lra|].
  unfold goes. apply existsb_exists. exists (dispatch mid x y z). split.
  - unfold targets. fold p. apply in_flat_map. exists x. split; [exact Ix|]. apply in_flat_map. exists y. split; [exact Iy|].
    apply in_map_iff. exists z. auto.
  - apply Z.eqb_eq. unfold dispatch. now rewrite Ex, Ey, Ez.
Qed.

Lemma filter_filter_id {A} (P T : A -> bool) l : (forall x, P x = true -> T x = true) -> filter P (filter T l) = filter P l.
Proof.
  intros H. induction l as [|a l IH]; [reflexivity|]. cbn. destruct (T a) eqn:Ta; cbn; [now rewrite IH|].
  destruct (P a) eqn:Pa; [|exact IH]. apply H in Pa. congruence.
Qed.

Lemma oct_small fuel objs : zlen objs <= 1000 ->
  exists t, oct_build (S fuel) (oct_fill oct_new objs) = Ok (Some t) /\
    (forall q tol out, exists new more, oct_find t out q tol = Ok (out ++ new) /\ Permutation (in_range objs q tol) (new ++ more)) /\
    (forall q tol out, (tol <= real_eps)%Q -> oct_find t out q tol = Ok (out ++ in_range objs q tol)).
Proof.
  intros Hn. rewrite fill_objs. unfold oct_build. cbn [o_objs o_root o_box oct_new app onode_new].
  pose proof (valid_range objs) as V. set (b := fold_left box_add _ _). set (mid := half_way _ _).
  destruct (create_small fuel objs (vsub (b_min b) (Coord real_eps real_eps real_eps)) (vadd (b_min b) (Coord real_eps real_eps real_eps)) mid
     (zrange (length objs)) V) as (ns & E & L & A).
  { unfold zlen in *. rewrite zrange_length. exact Hn. }
  rewrite E. eexists. split; [reflexivity|].
  assert (F : forall q tol out, oct_find (Octree objs (ONode (vsub (b_min b) (Coord real_eps real_eps real_eps)) (vadd (b_min b) (Coord real_eps real_eps real_eps)) mid
     (zrange (length objs)) true ns) b) out q tol = Ok (out ++ map (fun i => fst (pt objs i)) (filter (near objs q tol)
       (filter (goes objs mid (dispatch mid (cx q) (cy q) (cz q))) (zrange (length objs)))))).
  { intros q tol out. unfold oct_find. cbn [o_root o_objs find_recursive bind].
    pose proof (dispatch_range mid (cx q) (cy q) (cz q)) as R. set (loc := dispatch mid (cx q) (cy q) (cz q)) in *.
    destruct (A (Z.to_nat loc)) as (c & Hc & O); [lia|]. unfold vec_get at 1. destruct (Z.ltb_spec loc 0); [lia|].
    rewrite Hc. cbn [bind]. rewrite O, Z2Nat.id by lia. apply scan_ok.
    apply Forall_forall. intros i Hi. apply filter_In in Hi. rewrite Forall_forall in V. apply V, Hi. }
  split.
  - intros q tol out. rewrite F. eexists. eexists. split; [reflexivity|]. rewrite in_range_index, <- map_app.
    apply Permutation_map, split_filter.
  - intros q tol out Ht. rewrite F, in_range_index. do 3 f_equal. apply filter_filter_id.
    intros i Hi. now apply (near_goes objs mid q tol).
Qed.

(** ** Building is always defined on a new tree (though it may not end) *)
Lemma each_child_defined objs create todo : (forall c, fresh c -> Forall (valid objs) (on_coords c) -> exists r, create c = Ok r) ->
  forall done cs lf, Forall (fun c => fresh c /\ Forall (valid objs) (on_coords c)) todo ->
  exists r, each_child create todo done cs lf = Ok r.
Proof.
  intros Hc. induction todo as [|c todo IH]; intros done cs lf Hf; cbn -[zlen]; [eauto|].
  inversion Hf as [|? ? [F V] Hf']; subst. destruct (_ && _); [|auto].
  destruct (Hc c F V) as [[c'|] ->]; cbn; eauto.
Qed.

Lemma create_defined fuel : forall objs c, fresh c -> Forall (valid objs) (on_coords c) -> exists r, create_recursive fuel objs c = Ok r.
Proof.
  induction fuel as [|fuel IH]; intros objs c F V; [eexists; reflexivity|].
  destruct F as (lo & hi & mid & cs & ->). cbn [on_coords] in V. cbn [create_recursive].
  destruct (children_fresh objs lo hi mid cs V) as (ns1 & -> & L & F & A). cbn [bind].
  destruct (each_child_defined objs (create_recursive fuel objs) ns1 (IH objs) [] cs true F) as [[[[? ?] ?]|] ->]; cbn; eauto.
Qed.

(** ** A set of points for which it does not end *)
Definition stuck_points : list (Z * coord) :=
  (0, vzero) :: map (fun i => (i + 1, Coord real_eps 0 0)) (zrange 1001) ++ [(1002, Coord (2 * real_eps) 0 0)].

Lemma stuck_pt i : valid stuck_points i -> snd (pt stuck_points i) = vzero \/ snd (pt stuck_points i) = Coord real_eps 0 0 \/
   (snd (pt stuck_points i) = Coord (2 * real_eps) 0 0 /\ i = 1002).
Proof.
  intros [H1 H2]. assert (L : length (map (fun i => (i + 1, Coord real_eps 0 0)) (zrange 1001)) = 1001%nat) by (now rewrite map_length, zrange_length).
  unfold pt, stuck_points in *. unfold zlen in H2. cbn [length] in H2. rewrite app_length, L in H2. cbn [length] in H2.
  destruct (Z.to_nat i) as [|k] eqn:E; [now left|]. right. cbn [nth].
  destruct (Nat.lt_ge_cases k 1001) as [K|K].
  - left. rewrite app_nth1 by (rewrite L; exact K).
    rewrite (nth_indep _ (0, vzero) ((fun i => (i + 1, Coord real_eps 0 0)) 0)) by (rewrite L; exact K). rewrite (map_nth (fun i => (i + 1, Coord real_eps 0 0))). reflexivity.
  - right. assert (k = 1001%nat) by lia. subst k. split; [|lia]. rewrite app_nth2 by (rewrite L; lia). now rewrite L.
Qed.

Lemma eps_pos : (0 < real_eps)%Q. Proof. reflexivity. Qed.

Lemma lt_true a b : (a < b)%Q -> Qlt_bool a b = true. Proof. apply Qlt_bool_iff. Qed.
Lemma lt_false a b : (b <= a)%Q -> Qlt_bool a b = false.
Proof. intros H. apply not_true_is_false. intros C. apply Qlt_bool_iff in C. lra. Qed.

Definition stuck_mid (mid : coord) : Prop :=
  (cx mid == real_eps)%Q /\ (- real_eps < cy mid < real_eps)%Q /\ (- real_eps < cz mid < real_eps)%Q.

Lemma stuck_goes mid i : stuck_mid mid -> valid stuck_points i ->
  goes stuck_points mid 0 i = (i <? 1002) /\ goes stuck_points mid 1 i = true.
Proof.
  intros (X & [Y1 Y2] & [Z1 Z2]) V. pose proof eps_pos as P. destruct V as [V1 V2].
  assert (V3 : i < 1003) by (revert V2; unfold zlen; vm_compute length; exact (fun H => H)).
  assert (I : i = 1002 \/ i < 1002) by lia.
  assert (E : snd (pt stuck_points i) = vzero \/ snd (pt stuck_points i) = Coord real_eps 0 0 \/
     (snd (pt stuck_points i) = Coord (2 * real_eps) 0 0 /\ i = 1002)) by (apply stuck_pt; split; assumption).
  assert (E2 : i = 1002 -> snd (pt stuck_points i) = Coord (2 * real_eps) 0 0) by (intros ->; vm_compute; reflexivity).
  unfold goes, targets. 
  assert (D : forall x y z, dispatch mid x y z = if Qlt_bool x (cx mid)
    then if Qlt_bool y (cy mid) then if Qlt_bool z (cz mid) then 0 else 4 else if Qlt_bool z (cz mid) then 2 else 4
    else if Qlt_bool y (cy mid) then if Qlt_bool z (cz mid) then 1 else 5 else if Qlt_bool z (cz mid) then 3 else 7) by reflexivity.
  cbn [flat_map map app]. rewrite !D. clear D.
  assert (C : exists p, snd (pt stuck_points i) = p /\ (cy p == 0)%Q /\ (cz p == 0)%Q /\
     (((cx p == 0)%Q /\ i < 1002) \/ ((cx p == real_eps)%Q /\ i < 1002) \/ ((cx p == 2 * real_eps)%Q /\ i = 1002))).
  { exists (snd (pt stuck_points i)). split; [reflexivity|]. destruct I as [I|I].
    - rewrite (E2 I). repeat split; try reflexivity. right; right. split; [reflexivity|exact I].
    - destruct E as [E|[E|[_ E]]]; [| |lia]; rewrite E; (split; [reflexivity|split; [reflexivity|]]);
        [left|right; left]; (split; [reflexivity|exact I]). }
  destruct C as (p & -> & Py & Pz & C). clear E E2 I.
  rewrite (lt_true (cy p - real_eps) (cy mid)) by lra. rewrite (lt_false (cy p + real_eps) (cy mid)) by lra.
  rewrite (lt_true (cz p - real_eps) (cz mid)) by lra. rewrite (lt_false (cz p + real_eps) (cz mid)) by lra.
  destruct C as [[Px I]|[[Px I]|[Px I]]].
  - rewrite (lt_true (cx p - real_eps) (cx mid)) by lra. rewrite (lt_false (cx p + real_eps) (cx mid)) by lra.
    split; [|reflexivity]. symmetry. cbn. now apply Z.ltb_lt.
  - rewrite (lt_true (cx p - real_eps) (cx mid)) by lra. rewrite (lt_false (cx p + real_eps) (cx mid)) by lra.
    split; [|reflexivity]. symmetry. cbn. now apply Z.ltb_lt.
  - rewrite (lt_false (cx p - real_eps) (cx mid)) by lra. rewrite (lt_false (cx p + real_eps) (cx mid)) by lra.
    split; [|reflexivity]. subst i. reflexivity.
Qed.

Definition stuck_node (lo hi mid : coord) : Prop :=
  (cx hi == real_eps)%Q /\ stuck_mid mid /\ (- real_eps <= cy lo < cy mid)%Q /\ (- real_eps <= cz lo < cz mid)%Q.

Lemma Qred_half a b : (Qred ((a + b) * (1 # 2)) == (a + b) * (1 # 2))%Q.
Proof. apply Qred_correct. Qed.

Lemma stuck_never fuel : forall lo hi mid, stuck_node lo hi mid ->
  create_recursive fuel stuck_points (ONode lo hi mid (zrange (length stuck_points)) true []) = Ok None.
Proof.
  induction fuel as [|fuel IH]; intros lo hi mid S; [reflexivity|].
  destruct S as (Hx & M & Hy & Hz). pose proof (valid_range stuck_points) as V.
  revert IH. remember (zrange (length stuck_points)) as cs eqn:Ecs. intros IH. cbn [create_recursive].
  set (ns0 := map (fun c => create_node (snd c) lo hi mid (fst c)) (combine (zrange 8) (resize8 []))).
  destruct (hand_down_all stuck_points mid _ V ns0 eq_refl) as (ns1 & E & L & A). rewrite E. cbn [bind].
  destruct (children_fresh stuck_points lo hi mid _ V) as (ns1' & E' & _ & F & _).
  change (foldM (hand_down stuck_points mid) cs ns0 = Ok ns1') in E'. rewrite E in E'. injection E' as <-.
  pose proof (A 0%nat _ eq_refl) as A0. pose proof (A 1%nat _ eq_refl) as A1.
  destruct ns1 as [|c0 [|c1 rest]]; try discriminate L. cbn in A0, A1. injection A0 as ->. injection A1 as ->.
  pose proof (Forall_inv F) as [F0 V0]. pose proof (Forall_inv (Forall_inv_tail F)) as [F1 V1]. clear F A L E.
  assert (G0 : filter (goes stuck_points mid 0) cs = filter (fun i => i <? 1002) cs).
  { apply filter_ext_in. intros i Hi. rewrite Forall_forall in V. apply stuck_goes; auto. }
  assert (G1 : filter (goes stuck_points mid 1) cs = cs).
  { transitivity (filter (fun _ : Z => true) cs).
    - apply filter_ext_in. intros i Hi. rewrite Forall_forall in V. apply stuck_goes; auto.
    - clear. induction cs as [|a l IHl]; [reflexivity|]. cbn. now rewrite IHl. }
  cbn [each_child on_coords]. change (Z.of_nat 0) with 0 in *. change (Z.of_nat 1) with 1 in *.
  cbn [on_coords] in V0, V1. rewrite G0 in *. rewrite G1 in *.
  assert (T0 : negb (zlen (filter (fun i => i <? 1002) cs) =? zlen cs) &&
     (zlen (filter (fun i => i <? 1002) cs) >? max_per_node) = true) by (subst cs; vm_compute; reflexivity).
  rewrite T0. destruct (create_defined fuel stuck_points _ F0 V0) as [[c0'|] ->]; cbn [bind]; [|reflexivity].
  cbn [on_coords].
  assert (T1 : negb (zlen cs =? zlen (@nil Z)) &&
     (zlen cs >? max_per_node) = true) by (subst cs; vm_compute; reflexivity).
  rewrite T1. rewrite IH; [reflexivity|].
  destruct M as (Mx & [My1 My2] & [Mz1 Mz2]). unfold stuck_node, stuck_mid, half_way. cbn [cx cy cz Z.testbit Pos.testbit].
  rewrite !Qred_half. repeat split; lra.
Qed.

Lemma oct_stuck fuel : oct_build fuel (oct_fill oct_new stuck_points) = Ok None.
Proof.
  rewrite fill_objs. unfold oct_build. cbn [o_objs o_root o_box oct_new app onode_new].
  rewrite stuck_never; [reflexivity|].
  let b := eval vm_compute in (fold_left box_add (map snd stuck_points) box_reset) in
    replace (fold_left box_add (map snd stuck_points) box_reset) with b by (vm_compute; reflexivity).
  unfold stuck_node, stuck_mid. vm_compute. repeat split; try reflexivity; discriminate.
Qed.

(** ** Further witnesses *)
(** 1001 points close to the origin, one half way, one far away. *)
Definition crowd : list (Z * coord) :=
  map (fun i => (i, Coord (i # 10000) 0 0)) (zrange 1001) ++ [(1001, Coord (3 # 2) 0 0); (1002, Coord 4 4 4)].

Definition built (objs : list (Z * coord)) (fuel : nat) : octree :=
  match oct_build fuel (oct_fill oct_new objs) with Ok (Some t) => t | _ => oct_new end.

Lemma crowd_facts : exists t, oct_build 10 (oct_fill oct_new crowd) = Ok (Some t) /\
  oct_find t [] (Coord 0 0 0) 1 = Ok [] /\ zlen (in_range crowd (Coord 0 0 0) 1) = 1001 /\
  oct_find t [] (Coord 4 4 4) 1 = UB.
Proof.
  assert (C : match oct_build 10 (oct_fill oct_new crowd) with
              | Ok (Some t) => match oct_find t [] (Coord 0 0 0) 1, oct_find t [] (Coord 4 4 4) 1 with
                               | Ok [], UB => true | _, _ => false end
              | _ => false end = true) by (vm_cast_no_check (eq_refl true)).
  destruct (oct_build 10 (oct_fill oct_new crowd)) as [[t|]| |]; try discriminate C.
  exists t. split; [reflexivity|]. destruct (oct_find t [] (Coord 0 0 0) 1) as [[|]| |]; try discriminate C.
  split; [reflexivity|]. split; [vm_compute; reflexivity|].
  destruct (oct_find t [] (Coord 4 4 4) 1); [discriminate C|discriminate C|reflexivity].
Qed.

(** Lemmas about polygons. *)
From Coq Require Import QArith Qabs ZArith List Bool Lia Lqa Setoid Permutation.
From Verif Require Import Prelude Vec ZMap Seg_Model Seg_Spec Seg_Proofs Seg_Lists Face_Spec Face_Proofs Grid_Model Grid_Spec Poly_Model Poly_Spec.
Import ListNotations.
Open Scope Q_scope.

Ltac vring := repeat split; cbn [vadd vsub vopp vscale cross vzero cx cy cz]; ring.

(** ** Sums of cross products along a path *)
Fixpoint pvec (x : coord) (l : list coord) : coord :=
  match l with [] => vzero | y :: l' => vadd (cross x y) (pvec y l') end.

Lemma vadd_assoc a b c : vadd a (vadd b c) =v= vadd (vadd a b) c. Proof. vring. Qed.
Lemma vadd_comm a b : vadd a b =v= vadd b a. Proof. vring. Qed.
Lemma vadd_0_r a : vadd a vzero =v= a. Proof. vring. Qed.
Lemma vadd_0_l a : vadd vzero a =v= a. Proof. vring. Qed.
Lemma cross_self a : cross a a =v= vzero. Proof. vring. Qed.

Lemma pvec_app x l y k : pvec x (l ++ y :: k) =v= vadd (pvec x (l ++ [y])) (pvec y k).
Proof.
  revert x. induction l as [|z l IH]; intros x; cbn [app pvec].
  - rewrite vadd_0_r. reflexivity.
  - rewrite IH, vadd_assoc. reflexivity.
Qed.

Lemma pvec_veq l l' : Forall2 veq l l' -> forall x x', x =v= x' -> pvec x l =v= pvec x' l'.
Proof.
  induction 1 as [|y y' l l' Hy Hl IH]; intros x x' Hx; cbn [pvec]; [reflexivity|].
  now rewrite (IH _ _ Hy), Hx, Hy.
Qed.

Lemma cycle_sum x : forall r y,
  fold_right vadd vzero (map (fun p => cross (fst p) (snd p)) (combine (x :: r) (r ++ [y]))) =v= pvec x (r ++ [y]).
Proof.
  intros r. revert x. induction r as [|z r IH]; intros x y.
  - cbn [app combine map fold_right pvec fst snd]. reflexivity.
  - change (combine (x :: z :: r) ((z :: r) ++ [y])) with ((x, z) :: combine (z :: r) (r ++ [y])).
    cbn [map fold_right app pvec fst snd]. rewrite IH. reflexivity.
Qed.

Lemma area_pvec x r : area_vector (x :: r) =v= vscale (1#2) (pvec x (r ++ [x])).
Proof. unfold area_vector, cycle. rewrite cycle_sum. reflexivity. Qed.

Lemma area_rotate l k : area_vector (l ++ k) =v= area_vector (k ++ l).
Proof.
  destruct l as [|x l]; [now rewrite app_nil_r|]. destruct k as [|y k]; [now rewrite app_nil_r|].
  cbn [app]. rewrite !area_pvec.
  replace ((l ++ y :: k) ++ [x]) with (l ++ y :: (k ++ [x])) by (rewrite <- app_assoc; reflexivity).
  replace ((k ++ x :: l) ++ [y]) with (k ++ x :: (l ++ [y])) by (rewrite <- app_assoc; reflexivity).
  rewrite (pvec_app x l y (k ++ [x])), (pvec_app y k x (l ++ [y])), vadd_comm. reflexivity.
Qed.

(** Cutting off a corner. *)
Lemma area_ear x y z r : area_vector (x :: y :: r ++ [z]) =v= vadd (area_vector [x; y; z]) (area_vector (y :: r ++ [z])).
Proof.
  rewrite !area_pvec. cbn [app pvec].
  replace ((r ++ [z]) ++ [x]) with (r ++ z :: [x]) by (rewrite <- app_assoc; reflexivity).
  replace ((r ++ [z]) ++ [y]) with (r ++ z :: [y]) by (rewrite <- app_assoc; reflexivity).
  rewrite (pvec_app y r z [x]), (pvec_app y r z [y]). cbn [pvec]. vring.
Qed.

(** Closing a polyline does not change its vector area. *)
Lemma area_dup x r y : y =v= x -> area_vector (x :: r ++ [y]) =v= area_vector (x :: r).
Proof.
  intros E. rewrite !area_pvec.
  replace ((r ++ [y]) ++ [x]) with (r ++ y :: [x]) by (rewrite <- app_assoc; reflexivity).
  rewrite pvec_app. cbn [pvec].
  rewrite (pvec_veq (r ++ [y]) (r ++ [x])) with (x' := x); [|apply Forall2_app; [apply Forall2_rel_refl; reflexivity|constructor; [exact E|constructor]]|reflexivity].
  rewrite E. rewrite cross_self. now rewrite !vadd_0_r.
Qed.

Lemma area_closed l : area_vector (closed_polyline l) =v= area_vector l.
Proof. destruct l as [|x r]; [reflexivity|]. apply area_dup. reflexivity. Qed.

Lemma area_close vs tol : area_vector (pl_close vs tol) =v= area_vector vs.
Proof.
  unfold pl_close. destruct (Nat.ltb 2 (length vs)); [|reflexivity].
  destruct (norm_le _ tol); [reflexivity|]. destruct vs as [|x r]; [reflexivity|].
  apply area_dup. unfold vtx. rewrite Nat.mod_0_l by discriminate. reflexivity.
Qed.

(** Seen from another point. *)
Lemma pvec_shift o l : forall x y,
  pvec (vsub x o) (map (fun p => vsub p o) (l ++ [y])) =v= vsub (pvec x (l ++ [y])) (cross o (vsub y x)).
Proof.
  induction l as [|z l IH]; intros x y; cbn [app map pvec].
  - vring.
  - rewrite IH. vring.
Qed.

Lemma area_shift o l : area_vector (map (fun p => vsub p o) l) =v= area_vector l.
Proof.
  destruct l as [|x r]; [reflexivity|]. cbn [map]. rewrite !area_pvec.
  change [vsub x o] with (map (fun p => vsub p o) [x]). rewrite <- map_app, pvec_shift. vring.
Qed.

Lemma area_veq l l' : Forall2 veq l l' -> area_vector l =v= area_vector l'.
Proof.
  intros H. destruct H as [|x x' r r' Hx Hr]; [reflexivity|]. rewrite !area_pvec.
  rewrite (pvec_veq (r ++ [x]) (r' ++ [x'])) with (x' := x'); [reflexivity| |exact Hx].
  apply Forall2_app; auto.
Qed.

(** ** The normal times the area *)
Definition perp (n v : coord) : Prop := dot n v == 0.

Lemma cross_perp n u v : perp n u -> perp n v -> cross n (cross u v) =v= vzero.
Proof.
  unfold perp, dot. intros Hu Hv.
  repeat split; cbn [cross vzero cx cy cz].
  - assert (E : cy n * (cx u * cy v - cy u * cx v) - cz n * (cz u * cx v - cx u * cz v) ==
      cx u * (cx n * cx v + cy n * cy v + cz n * cz v) - cx v * (cx n * cx u + cy n * cy u + cz n * cz u)) by ring.
    rewrite E, Hu, Hv. ring.
  - assert (E : cz n * (cy u * cz v - cz u * cy v) - cx n * (cx u * cy v - cy u * cx v) ==
      cy u * (cx n * cx v + cy n * cy v + cz n * cz v) - cy v * (cx n * cx u + cy n * cy u + cz n * cz u)) by ring.
    rewrite E, Hu, Hv. ring.
  - assert (E : cx n * (cz u * cx v - cx u * cz v) - cy n * (cy u * cz v - cz u * cy v) ==
      cz u * (cx n * cx v + cy n * cy v + cz n * cz v) - cz v * (cx n * cx u + cy n * cy u + cz n * cz u)) by ring.
    rewrite E, Hu, Hv. ring.
Qed.

(** Two vectors parallel to a third one are parallel. *)
Lemma parallel_trans n a b : ~ n =v= vzero -> cross n a =v= vzero -> cross n b =v= vzero -> cross a b =v= vzero.
Proof.
  intros Hn (A1 & A2 & A3) (B1 & B2 & B3). cbn [cross vzero cx cy cz] in *.
  destruct (Qeq_dec (cx n) 0) as [Ex|Ex]; [destruct (Qeq_dec (cy n) 0) as [Ey|Ey]; [destruct (Qeq_dec (cz n) 0) as [Ez|Ez]|]|].
  - exfalso. apply Hn. repeat split; assumption.
  - rewrite Ex, Ey in *.
    assert (Ha : cx a == 0 /\ cy a == 0) by (split; apply (Qmult_inj_l _ _ (cz n)); auto; lra).
    assert (Hb : cx b == 0 /\ cy b == 0) by (split; apply (Qmult_inj_l _ _ (cz n)); auto; lra).
    destruct Ha as [Ha1 Ha2], Hb as [Hb1 Hb2]. repeat split; cbn [cross vzero cx cy cz]; rewrite ?Ha1, ?Ha2, ?Hb1, ?Hb2; ring.
  - rewrite Ex in *.
    assert (Ha : cx a == 0) by (apply (Qmult_inj_l _ _ (cy n)); auto; lra).
    assert (Hb : cx b == 0) by (apply (Qmult_inj_l _ _ (cy n)); auto; lra).
    assert (Ha2 : cz a == cz n / cy n * cy a) by (field_simplify_eq; [lra|auto]).
    assert (Hb2 : cz b == cz n / cy n * cy b) by (field_simplify_eq; [lra|auto]).
    repeat split; cbn [cross vzero cx cy cz]; rewrite ?Ha, ?Hb, ?Ha2, ?Hb2; ring.
  - assert (Ha2 : cz a == cz n / cx n * cx a) by (field_simplify_eq; [lra|auto]).
    assert (Hb2 : cz b == cz n / cx n * cx b) by (field_simplify_eq; [lra|auto]).
    assert (Ha3 : cy a == cy n / cx n * cx a) by (field_simplify_eq; [lra|auto]).
    assert (Hb3 : cy b == cy n / cx n * cx b) by (field_simplify_eq; [lra|auto]).
    repeat split; cbn [cross vzero cx cy cz]; rewrite ?Ha2, ?Hb2, ?Ha3, ?Hb3; ring.
Qed.

Lemma cross_anti a b : cross a b =v= vopp (cross b a). Proof. vring. Qed.
Lemma cross_vadd a b c : cross a (vadd b c) =v= vadd (cross a b) (cross a c). Proof. vring. Qed.
Lemma cross_vscale a k c : cross a (vscale k c) =v= vscale k (cross a c). Proof. vring. Qed.

Lemma pvec_parallel n l : forall x, perp n x -> (forall v, In v l -> perp n v) -> cross n (pvec x l) =v= vzero.
Proof.
  induction l as [|y l IH]; intros x Hx Hl; cbn [pvec].
  - vring.
  - rewrite cross_vadd, cross_perp, IH; auto using in_eq, in_cons. now rewrite vadd_0_l.
Qed.

(** The vector area of a plane polygon is normal to its plane. *)
Lemma area_parallel n c l : (forall v, In v l -> dot n v == c) -> cross n (area_vector l) =v= vzero.
Proof.
  intros H. destruct l as [|x r]; [unfold area_vector; cbn [cycle map fold_right]; vring|]. rewrite <- (area_shift x (x :: r)). cbn [map]. rewrite area_pvec, cross_vscale.
  assert (P : forall v, In v (x :: r) -> perp n (vsub v x)).
  { intros v Hv. unfold perp. rewrite dot_vsub, (H v Hv), (H x (in_eq _ _)). ring. }
  rewrite pvec_parallel; [vring| |].
  - apply P, in_eq.
  - intros v Hv. apply in_app_iff in Hv as [Hv|[<-|[]]]; [|apply P, in_eq].
    apply in_map_iff in Hv as (w & <- & Hw). apply P. now right.
Qed.

Lemma drop_axis_nonzero n : ~ n =v= vzero -> ~ comp (drop_axis n) n == 0.
Proof.
  intros Hn E. unfold drop_axis in E.
  assert (A0 : forall q, Qabs q == 0 -> q == 0).
  { intros q Hq. destruct (Qlt_le_dec q 0); [rewrite Qabs_neg in Hq by lra|rewrite Qabs_pos in Hq by assumption]; lra. }
  pose proof (Qabs_nonneg (cx n)). pose proof (Qabs_nonneg (cy n)). pose proof (Qabs_nonneg (cz n)).
  destruct (Qlt_bool (Qabs (cy n)) (Qabs (cx n))) eqn:E1; [apply Qlt_bool_iff in E1|apply Qlt_bool_false in E1].
  - destruct (Qlt_bool (Qabs (cz n)) (Qabs (cx n))) eqn:E2; [apply Qlt_bool_iff in E2|apply Qlt_bool_false in E2]; cbn [comp] in E.
    + rewrite E in E1. cbn in E1. lra.
    + rewrite E in E2. cbn in E2. lra.
  - destruct (Qlt_bool (Qabs (cz n)) (Qabs (cy n))) eqn:E2; [apply Qlt_bool_iff in E2|apply Qlt_bool_false in E2]; cbn [comp] in E.
    + rewrite E in E2. cbn in E2. lra.
    + rewrite E in E2. change (Qabs 0) with 0 in E2. apply Hn. repeat split; cbn [vzero cx cy cz]; [apply A0|apply A0|assumption]; lra.
Qed.

Lemma parallel_ratio (v n : coord) a : cross n v =v= vzero -> ~ comp a n == 0 -> v =v= vscale (comp a v / comp a n) n.
Proof.
  intros (A1 & A2 & A3) H. cbn [cross vzero cx cy cz] in *.
  destruct a; cbn [comp] in *; repeat split; cbn [vscale cx cy cz]; field_simplify_eq; auto; lra.
Qed.

(** The sum over the vertices is a component of the vector area. *)
Lemma cycle_vtx (vs : list coord) : cycle vs = map (fun i => (vtx vs i, vtx vs (i + 1))) (seq 0 (length vs)).
Proof.
  destruct vs as [|x r]; [reflexivity|]. set (vs := x :: r).
  assert (L : length (cycle vs) = length vs).
  { unfold cycle, vs. rewrite combine_length, app_length. cbn [length]. lia. }
  apply (nth_ext _ _ (vzero, vzero) (vzero, vzero)).
  - rewrite map_length, seq_length. exact L.
  - intros i Hi. rewrite L in Hi.
    rewrite (nth_indep (map _ _) _ (vtx vs 0, vtx vs (0 + 1))) by (rewrite map_length, seq_length; exact Hi).
    rewrite (map_nth (fun i => (vtx vs i, vtx vs (i + 1))) (seq 0 (length vs)) 0%nat i), seq_nth by exact Hi. cbn [Nat.add].
    unfold cycle, vs. fold vs. rewrite combine_nth by (unfold vs; rewrite app_length; cbn [length]; lia).
    f_equal.
    + unfold vtx. now rewrite Nat.mod_small.
    + unfold vtx. destruct (Nat.eq_dec (i + 1) (length vs)) as [E|E].
      * rewrite E, Nat.mod_same by discriminate. replace i with (length r) by (unfold vs in E; cbn [length] in E; lia).
        rewrite app_nth2, Nat.sub_diag by lia. reflexivity.
      * assert (Hlt : (i + 1 < length vs)%nat) by lia. rewrite Nat.mod_small by lia. unfold vs in *. cbn [length] in *.
        rewrite app_nth1 by lia. replace (i + 1)%nat with (S i) by lia. reflexivity.
Qed.

Lemma rsum_app l k : rsum (l ++ k) == rsum l + rsum k.
Proof. unfold rsum. induction l as [|x l IH]; cbn [app fold_right]; [lra|]. rewrite IH. ring. Qed.

Lemma rsum_rotate (f : nat -> Q) n : f n == f 0%nat -> rsum (map f (seq 1 n)) == rsum (map f (seq 0 n)).
Proof.
  intros H. destruct n as [|n]; [reflexivity|].
  rewrite (seq_S n 1). cbn [seq]. rewrite map_app, rsum_app. cbn [map rsum fold_right]. unfold rsum in *.
  cbn [Nat.add] in *. rewrite H. ring.
Qed.

Lemma vtx_mod vs i : vtx vs (i + length vs) = vtx vs i.
Proof.
  unfold vtx. destruct vs as [|x r]; [destruct (Nat.modulo _ _), (Nat.modulo _ _); reflexivity|].
  set (n := length (x :: r)). replace (i + n)%nat with (i + 1 * n)%nat by lia. now rewrite Nat.mod_add by discriminate.
Qed.

Lemma comp_veq a u v : u =v= v -> comp a u == comp a v.
Proof. intros (H1 & H2 & H3). destruct a; assumption. Qed.
Lemma comp_vadd a u v : comp a (vadd u v) == comp a u + comp a v. Proof. destruct a; reflexivity. Qed.
Lemma comp_cross a u v : comp a (cross u v) ==
  comp (next_axis a) u * comp (next_axis (next_axis a)) v - comp (next_axis (next_axis a)) u * comp (next_axis a) v.
Proof. destruct a; reflexivity. Qed.

Lemma comp_fold a l : comp a (fold_right vadd vzero l) == rsum (map (comp a) l).
Proof.
  unfold rsum. induction l as [|v l IH]; cbn [fold_right map]; [destruct a; reflexivity|]. now rewrite comp_vadd, IH.
Qed.

Lemma rsum_ext {A} (f g : A -> Q) l : (forall x, In x l -> f x == g x) -> rsum (map f l) == rsum (map g l).
Proof.
  unfold rsum. induction l as [|x l IH]; intros H; cbn [map fold_right]; [reflexivity|]. rewrite (H x) by apply in_eq.
  rewrite IH; [reflexivity|]. intros y Hy. apply H. now right.
Qed.
Lemma rsum_sub {A} (f g : A -> Q) l : rsum (map (fun x => f x - g x) l) == rsum (map f l) - rsum (map g l).
Proof. unfold rsum. induction l as [|x l IH]; cbn [map fold_right]; [reflexivity|]. rewrite IH. ring. Qed.

Lemma shoelace_area a vs : shoelace a vs == 2 * comp a (area_vector vs).
Proof.
  unfold shoelace. set (p := next_axis a). set (q := next_axis p).
  set (F := fun i => comp p (vtx vs i) * comp q (vtx vs (i + 1))).
  set (G := fun i => comp q (vtx vs i) * comp p (vtx vs (i + 1))).
  rewrite (rsum_ext _ (fun i => F i - comp p (vtx vs i) * comp q (vtx vs (i - 1)))) by (intros; unfold F; ring).
  rewrite rsum_sub.
  assert (E1 : rsum (map F (seq 1 (length vs))) == rsum (map F (seq 0 (length vs)))).
  { apply rsum_rotate. unfold F. rewrite (vtx_mod vs 0 : vtx vs (length vs) = _). now rewrite (Nat.add_comm (length vs) 1), vtx_mod. }
  assert (E2 : rsum (map (fun i => comp p (vtx vs i) * comp q (vtx vs (i - 1))) (seq 1 (length vs))) == rsum (map G (seq 0 (length vs)))).
  { rewrite <- seq_shift, map_map. apply rsum_ext. intros i _. unfold G. replace (S i - 1)%nat with i by lia. replace (i + 1)%nat with (S i) by lia. ring. }
  rewrite E1, E2. unfold area_vector. rewrite cycle_vtx, map_map.
  assert (E3 : comp a (vscale (1#2) (fold_right vadd vzero (map (fun i => cross (fst (vtx vs i, vtx vs (i+1))) (snd (vtx vs i, vtx vs (i+1)))) (seq 0 (length vs))))) ==
               (1#2) * (rsum (map F (seq 0 (length vs))) - rsum (map G (seq 0 (length vs))))).
  { match goal with |- comp a (vscale _ ?X) == _ => transitivity ((1#2) * comp a X); [destruct a; reflexivity|] end.
    rewrite comp_fold, map_map. apply Qmult_inj_l; [discriminate|]. rewrite <- rsum_sub. apply rsum_ext. intros i _.
    cbn [fst snd]. rewrite comp_cross. fold p q. reflexivity. }
  rewrite E3. ring.
Qed.

Lemma vtx_in vs i : vs <> [] -> In (vtx vs i) vs.
Proof.
  intros H. unfold vtx. apply nth_In. apply Nat.mod_upper_bound. destruct vs; [now contradiction H|discriminate].
Qed.

Lemma norm_le_zero n tol : 0 <= tol -> n =v= vzero -> norm_le n tol = true.
Proof.
  intros Ht Hn. unfold norm_le. rewrite andb_true_iff. split; apply Qle_bool_iff; [exact Ht|].
  rewrite Hn. change (norm2 vzero) with (0*0+0*0+0*0). nra.
Qed.

Lemma eps_nonneg : 0 <= real_eps.
Proof. unfold real_eps. discriminate. Qed.

Lemma pg_vector_area vs n : planar vs -> pg_normal vs = Some n -> pg_vector vs =v= area_vector vs.
Proof.
  intros (m & c & Hm & Hp) Hn. unfold pg_vector, pg_area_ratio. rewrite Hn.
  apply find_some in Hn as [Hin Hlong]. apply in_map_iff in Hin as (i & <- & Hi). apply in_seq in Hi.
  set (n := corner vs i) in *.
  assert (Hne : vs <> []) by (intros ->; cbn in Hi; lia).
  assert (Hn0 : ~ n =v= vzero).
  { intros E. rewrite norm_le_zero in Hlong; [discriminate|apply eps_nonneg|exact E]. }
  assert (Hpar : cross m n =v= vzero).
  { unfold n, corner. apply cross_perp; unfold perp; rewrite dot_vsub, !Hp by (apply vtx_in; exact Hne); ring. }
  pose proof (area_parallel m c vs Hp) as Har.
  pose proof (parallel_trans m n (area_vector vs) Hm Hpar Har) as Hpa.
  pose proof (drop_axis_nonzero n Hn0) as Hk.
  symmetry. rewrite (parallel_ratio (area_vector vs) n (drop_axis n) Hpa Hk) at 1.
  apply vscale_Proper; [|reflexivity]. rewrite shoelace_area. field. exact Hk.
Qed.

Lemma visible_normal vs : visible vs -> exists n, pg_normal vs = Some n.
Proof.
  intros (l & a & b & c & r & E & H). unfold pg_normal.
  destruct (find _ _) as [n|] eqn:F; [now exists n|]. exfalso.
  assert (L : length vs = (length l + (3 + length r))%nat) by (rewrite E, app_length; reflexivity).
  assert (Hi : In (corner vs (length l + 1)) (map (corner vs) (seq 1 (length vs - 2)))).
  { apply in_map. apply in_seq. lia. }
  pose proof (find_none _ _ F _ Hi) as Hf. apply negb_false_iff in Hf.
  assert (V : forall k, (k < 3 + length r)%nat -> vtx vs (length l + k) = nth k (a :: b :: c :: r) vzero).
  { intros k Hk. unfold vtx. rewrite Nat.mod_small by lia. rewrite E, app_nth2_plus. reflexivity. }
  unfold corner in Hf. replace (length l + 1 - 1)%nat with (length l + 0)%nat in Hf by lia.
  replace (length l + 1 + 1)%nat with (length l + 2)%nat in Hf by lia. rewrite !V in Hf by lia. cbn [nth] in Hf.
  unfold norm_le in Hf. apply andb_true_iff in Hf as [_ Hf]. apply Qle_bool_iff in Hf. lra.
Qed.

Lemma normal_visible vs n : pg_normal vs = Some n -> visible vs.
Proof.
  intros Hn. apply find_some in Hn as [Hin Hlong]. apply in_map_iff in Hin as (i & <- & Hi). apply in_seq in Hi.
  assert (Hs : forall k, (k < length vs)%nat -> skipn k vs = vtx vs k :: skipn (S k) vs).
  { intros k Hk. unfold vtx. rewrite Nat.mod_small by exact Hk. apply skipn_nth_error. now apply nth_error_nth'. }
  exists (firstn (i - 1) vs), (vtx vs (i - 1)), (vtx vs i), (vtx vs (i + 1)), (skipn (i + 2) vs). split.
  - rewrite <- (firstn_skipn (i - 1) vs) at 1. f_equal. rewrite Hs by lia. f_equal.
    replace (S (i - 1)) with i by lia. rewrite Hs by lia. f_equal. replace (S i) with (i + 1)%nat by lia.
    rewrite Hs by lia. f_equal. f_equal. lia.
  - unfold corner, norm_le in Hlong. apply negb_true_iff in Hlong. apply andb_false_iff in Hlong as [H|H]; apply Qle_bool_false in H.
    + pose proof eps_nonneg. lra.
    + exact H.
Qed.

Lemma polygon_measure vs : planar vs -> visible vs -> pg_vector vs =v= area_vector vs.
Proof. intros Hp Hv. apply visible_normal in Hv as (n & Hn). exact (pg_vector_area vs n Hp Hn). Qed.

Lemma polygon_unseen vs : ~ visible vs -> pg_vector vs = vzero.
Proof.
  intros H. unfold pg_vector. destruct (pg_normal vs) as [n|] eqn:E; [|reflexivity].
  exfalso. exact (H (normal_visible vs n E)).
Qed.

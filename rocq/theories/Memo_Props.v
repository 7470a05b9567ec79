(** C94: what geometric objects remember. *)
From Coq Require Import QArith ZArith List Bool Lia.
From Verif Require Import Prelude Vec Box_Model Seg_Model Grid_Model Poly_Model Cell_Model Memo_Model.
Import ListNotations.
Open Scope Z_scope.

(** ** Vocabulary *)
(** The calls after which a result of kind [k] may differ from before. *)
Definition renews (sh : shape) (k : kind) (c : call) : Prop := c = Calculate k true \/ (c = Reset /\ forgets sh k = true).
Definition enough (sh : shape) (o : object) : Prop := (needs sh <= length (o_vs o))%nat.

Lemma kind_eqb_spec a b : kind_eqb a b = true <-> a = b.
Proof. destruct a, b; cbn; split; congruence. Qed.
Lemma kind_eqb_refl a : kind_eqb a a = true.
Proof. now apply kind_eqb_spec. Qed.
Lemma perform_all_app sh a b o : perform_all sh (a ++ b) o = (o' <- perform_all sh a o ;; perform_all sh b o').
Proof. unfold perform_all. revert o. induction a as [|c a IH]; intros o; [reflexivity|]. cbn [app foldM]. destruct (perform sh o c); cbn [bind]; [apply IH|reflexivity|reflexivity]. Qed.
Lemma measure_none sh k a b : measure sh k a = None -> measure sh k b = None.
Proof. destruct sh, k; cbn; congruence. Qed.
(** One call and one kind. *)
Lemma perform_val sh o c o' k : perform sh o c = Ok o' ->
  (o_val o' k = o_val o k /\ (~ renews sh k c \/ measure sh k (o_vs o) = None)) \/ (c = Reset /\ forgets sh k = true /\ o_val o' k = None) \/
  exists f v, c = Calculate k f /\ (f = true \/ o_val o k = None) /\ enough sh o /\ measure sh k (o_vs o) = Some v /\ o_val o' k = Some v /\ o_vs o' = o_vs o.
Proof.
  assert (Ne : forall x, (forall f, x <> Calculate k f) -> x <> Reset -> ~ renews sh k x) by (intros x H1 H2 [E|[E _]]; [exact (H1 _ E)|exact (H2 E)]).
  destruct c as [p|i p|i|i p| | |k' f]; cbn [perform]; intros H.
  1: injection H as <-. 2: destruct (vl_insert _ _ _); [|discriminate|discriminate]; injection H as <-. 3: destruct (vl_remove _ _); [|discriminate|discriminate]; injection H as <-.
  4: destruct (vl_set _ _ _); [|discriminate|discriminate]; injection H as <-. 5: injection H as <-.
  1-5: left; split; [reflexivity|left; apply Ne; congruence].
  - injection H as <-. unfold reset. cbn [o_val]. destruct (forgets sh k) eqn:E; [right; left; auto|]. left. split; [reflexivity|]. left. intros [C|[_ C]]; congruence.
  - unfold calculate in H. destruct (kind_eqb k' k) eqn:Ek.
    + apply kind_eqb_spec in Ek. subst k'. destruct (measure sh k (o_vs o)) as [v|] eqn:Em; [|injection H as <-; left; auto].
      assert (Go : (if (length (o_vs o) <? needs sh)%nat then UB else Ok (remember o k (Some v))) = Ok o' -> f = true \/ o_val o k = None -> exists f0 v0, Calculate k f = Calculate k f0 /\ (f0 = true \/ o_val o k = None) /\ enough sh o /\ Some v = Some v0 /\ o_val o' k = Some v0 /\ o_vs o' = o_vs o).
      { intros Hq Hf. destruct (Nat.ltb_spec (length (o_vs o)) (needs sh)); [discriminate|]. injection Hq as <-. exists f, v. unfold remember. cbn [o_val o_vs]. rewrite kind_eqb_refl. auto 8. }
      destruct (o_val o k) eqn:Ev; [destruct f|].
      * right. right. apply Go; auto.
      * injection H as <-. left. split; [exact Ev|]. left. intros [C|[C _]]; discriminate C.
      * right. right. apply Go; auto.
    + left. assert (Nk : k' <> k) by (intros ->; rewrite kind_eqb_refl in Ek; discriminate). split; [|left; apply Ne; congruence].
      assert (Go : forall v, (if (length (o_vs o) <? needs sh)%nat then UB else Ok (remember o k' (Some v))) = Ok o' -> o_val o' k = o_val o k).
      { intros v Hq. destruct (length (o_vs o) <? needs sh)%nat; [discriminate|]. injection Hq as <-. unfold remember. cbn [o_val]. now rewrite Ek. }
      destruct (measure sh k' (o_vs o)) as [v|]; [|now injection H as <-]. destruct (o_val o k'); [destruct f; [|now injection H as <-]|]; now apply (Go v).
Qed.

(** ** C94 *)
(** A remembered result was measured on the vertices of some earlier moment, at which it was forced or nothing was remembered, and has not been renewed since. *)
Theorem C94_remembered : forall sh cs o k v, perform_all sh cs fresh = Ok o -> o_val o k = Some v ->
  exists before f after o1, cs = before ++ Calculate k f :: after /\ perform_all sh before fresh = Ok o1 /\ enough sh o1 /\ measure sh k (o_vs o1) = Some v /\ (f = true \/ o_val o1 k = None) /\
    forall c, In c after -> ~ renews sh k c.
Proof.
  intros sh cs. induction cs as [|c cs IH] using rev_ind; intros o k v H Hv; [injection H as <-; discriminate|].
  rewrite perform_all_app in H. destruct (perform_all sh cs fresh) as [o1| |] eqn:E; [|discriminate|discriminate]. cbn [bind] in H. unfold perform_all in H. cbn [foldM] in H. destruct (perform sh o1 c) as [o2| |] eqn:Ec; [|discriminate|discriminate]. cbn [bind] in H. injection H as <-.
  destruct (perform_val sh o1 c o2 k Ec) as [[Hs Hr]|[(_ & _ & Hn)|(f & v' & -> & Hf & He & Hm & Hv' & _)]]; [|congruence|].
  - destruct (IH o1 k v eq_refl ltac:(congruence)) as (bf & f0 & af & o0 & A1 & A2 & A3 & A4 & A5 & A6). exists bf, f0, (af ++ [c]), o0. split; [rewrite A1, <- app_assoc; reflexivity|]. split; [exact A2|]. split; [exact A3|]. split; [exact A4|]. split; [exact A5|].
    intros c' Hc. apply in_app_iff in Hc. destruct Hc as [Hc|[<-|[]]]; [now apply A6|]. destruct Hr as [Hr|Hr]; [exact Hr|]. rewrite (measure_none _ _ _ (o_vs o0) Hr) in A4. discriminate.
  - rewrite Hv in Hv'. injection Hv' as <-. exists cs, f, [], o1. split; [reflexivity|]. split; [exact E|]. split; [exact He|]. split; [exact Hm|]. split; [exact Hf|]. intros c [].
Qed.
Print Assumptions C94_remembered.

(** Forcing always gives the measure of the present vertices, and so does asking when nothing is remembered; vertices are left alone. *)
Theorem C94_forced : forall sh k f o v, enough sh o -> measure sh k (o_vs o) = Some v -> f = true \/ o_val o k = None ->
  exists o', calculate sh k f o = Ok o' /\ o_val o' k = Some v /\ o_vs o' = o_vs o /\ forall k', k' <> k -> o_val o' k' = o_val o k'.
Proof.
  intros sh k f o v He Hm Hf. exists (remember o k (Some v)). unfold calculate. rewrite Hm. assert (L : (length (o_vs o) <? needs sh)%nat = false) by (apply Nat.ltb_ge; exact He). rewrite L.
  split; [destruct (o_val o k); [destruct f; [reflexivity|destruct Hf; discriminate]|reflexivity]|]. unfold remember. cbn [o_val o_vs]. rewrite kind_eqb_refl. split; [reflexivity|]. split; [reflexivity|].
  intros k' Hk. destruct (kind_eqb k k') eqn:E; [|reflexivity]. apply kind_eqb_spec in E. congruence.
Qed.
Print Assumptions C94_forced.

(** Without forcing, a remembered result is returned whatever has been done to the vertices in between. *)
Theorem C94_kept : forall sh k cs o o' v, o_val o k = Some v -> measure sh k (o_vs o) <> None -> (forall c, In c cs -> ~ renews sh k c) -> perform_all sh cs o = Ok o' ->
  o_val o' k = Some v /\ calculate sh k false o' = Ok o'.
Proof.
  intros sh k cs. induction cs as [|c cs IH]; intros o o' v Hv Hm Hc H.
  - injection H as <-. split; [exact Hv|]. unfold calculate. rewrite Hv. now destruct (measure sh k (o_vs o)).
  - unfold perform_all in H. cbn [foldM] in H. destruct (perform sh o c) as [o1| |] eqn:Ec; [|discriminate|discriminate]. cbn [bind] in H.
    apply (IH o1 o' v); [|intros N; apply Hm; now apply (measure_none _ _ (o_vs o1))|intros c' Hc'; apply Hc; now right|exact H].
    destruct (perform_val sh o c o1 k Ec) as [[Hs _]|[(-> & Hf & _)|(f & v' & -> & Hf & _)]]; [congruence| |].
    + exfalso. apply (Hc Reset); [now left|]. right. auto.
    + exfalso. destruct Hf as [->|Hf]; [|congruence]. apply (Hc (Calculate k true)); [now left|]. now left.
Qed.
Print Assumptions C94_kept.

(** After reset() a triangle or a quadrilateral is as good as new. *)
Theorem C94_reset : forall sh o, sh = Tri \/ sh = Quad -> o_vs (reset sh o) = [] /\ forall k, o_val (reset sh o) k = None.
Proof. intros sh o [-> | ->]; split; reflexivity. Qed.
Print Assumptions C94_reset.

(** A tetrahedron which has remembered nothing yet, or the box of its present vertices, answers contains() for these vertices. *)
Theorem C94_contains : forall o p tol, length (o_vs o) = 4%nat -> (o_val o Bounds = None \/ o_val o Bounds = measure Tet Bounds (o_vs o)) ->
  exists o', holds_point o p tol = Ok (o', tet_contains (o_vs o) p tol) /\ o_vs o' = o_vs o.
Proof.
  intros o p tol Hl Hb.
  assert (St : forall q, o_vs q = o_vs o -> o_val q Bounds = measure Tet Bounds (o_vs o) -> calculate Tet Bounds false o = Ok q -> exists o', holds_point o p tol = Ok (o', tet_contains (o_vs o) p tol) /\ o_vs o' = o_vs o).
  { intros q Hq Hv Hc. exists q. split; [|exact Hq]. unfold holds_point. rewrite Hc. cbn [bind]. rewrite Hv. cbn [measure]. rewrite Hq.
    destruct (o_vs o) as [|a [|b [|c [|d [|e l]]]]]; try discriminate Hl. reflexivity. }
  destruct (o_val o Bounds) as [w|] eqn:E.
  - destruct Hb as [Hb|Hb]; [discriminate|]. apply (St o); [reflexivity|congruence|]. unfold calculate. rewrite E. destruct (measure Tet Bounds (o_vs o)); reflexivity.
  - destruct (C94_forced Tet Bounds false o (Within (box_add_all (firstn 4 (o_vs o)))) ltac:(unfold enough; cbn [needs]; lia) eq_refl (or_intror E)) as (q & A & B & C & _). now apply (St q).
Qed.
Print Assumptions C94_contains.

(** ** Examples and refutations *)
Open Scope Q_scope.
Definition corners4 (s : Q) : list call := [Add (Coord s 0 0); Add (Coord s 1 0); Add (Coord (s + 1) 0 0); Add (Coord s 0 1)].
(** Readings of an object after some calls. *)
Definition centre_x (r : outcome object) : option Q := match r with Ok o => match o_val o Centroid with Some (At p) => Some (Qred (cx p)) | _ => None end | _ => None end.
Definition centre_y (r : outcome object) : option Q := match r with Ok o => match o_val o Centroid with Some (At p) => Some (Qred (cy p)) | _ => None end | _ => None end.
Definition amount (r : outcome object) : option Q := match r with Ok o => match o_val o Volume with Some (Amount v) => Some (Qred v) | _ => None end | _ => None end.
Definition vertices_of (r : outcome object) : list coord := match r with Ok o => o_vs o | _ => [] end.
Definition answer (r : outcome (object * bool)) : option bool := match r with Ok (_, b) => Some b | _ => None end.
(** A triangle is measured, one vertex is moved, then asked again without and with forcing. *)
Example C94_case : let cs := [Add (Coord 0 0 0); Add (Coord 3 0 0); Add (Coord 0 3 0); Calculate Centroid false; Calculate Normal false; Change 2 (Coord 0 6 0)] in
  centre_y (perform_all Tri (cs ++ [Calculate Centroid false]) fresh) = Some 1 /\ centre_y (perform_all Tri (cs ++ [Calculate Centroid true]) fresh) = Some 2 /\
  centre_y (perform_all Tri (cs ++ [Reset; Add (Coord 0 0 0); Add (Coord 3 0 0); Add (Coord 0 9 0); Calculate Centroid false]) fresh) = Some 3.
Proof. vm_compute. auto. Qed.
(** reset() of a tetrahedron does not forget the centroid: an object used again for another tetrahedron keeps reporting the centroid of the first one. *)
Theorem C94_reset_refuted : let cs := corners4 0 ++ [Calculate Centroid false; Reset] ++ corners4 9 in
  centre_x (perform_all Tet (cs ++ [Calculate Centroid false]) fresh) = Some (1 # 4) /\ centre_x (perform_all Tet (corners4 9 ++ [Calculate Centroid false]) fresh) = Some (37 # 4) /\
  vertices_of (perform_all Tet cs fresh) = vertices_of (perform_all Tet (corners4 9) fresh).
Proof. vm_compute. auto. Qed.
Print Assumptions C94_reset_refuted.
(** reset() of a hexahedron or a prism does nothing: the old vertices stay in front of the new ones, and the volume stays that of the first solid even when its calculation is forced. *)
Definition prism_at (h : Q) : list call := [Add (Coord 0 0 0); Add (Coord 1 0 0); Add (Coord 0 1 0); Add (Coord 0 0 h); Add (Coord 1 0 h); Add (Coord 0 1 h)].
Theorem C94_empty_reset_refuted : let cs := prism_at 1 ++ [Reset] ++ prism_at 5 in
  length (vertices_of (perform_all Prism cs fresh)) = 12%nat /\ amount (perform_all Prism (cs ++ [Calculate Volume true]) fresh) = Some (- (1 # 2)) /\
  amount (perform_all Prism (prism_at 5 ++ [Calculate Volume true]) fresh) = Some (- (5 # 2)).
Proof. vm_compute. auto. Qed.
Print Assumptions C94_empty_reset_refuted.
(** A tetrahedron whose vertices have been moved after contains() was asked once rejects its own inner points, because the box remembered is the old one. *)
Theorem C94_contains_refuted : let p := Coord (73 # 8) (1 # 8) (1 # 8) in let tol := 1 # 1000 in
  let moved := [Change 0 (Coord 9 0 0); Change 1 (Coord 9 1 0); Change 2 (Coord 10 0 0); Change 3 (Coord 9 0 1)] in
  let first := perform_all Tet (corners4 0) fresh in
  answer (o <- first ;; holds_point o (Coord (1 # 8) (1 # 8) (1 # 8)) tol) = Some true /\
  answer (o <- first ;; r <- holds_point o (Coord (1 # 8) (1 # 8) (1 # 8)) tol ;; o2 <- perform_all Tet moved (fst r) ;; holds_point o2 p tol) = Some false /\
  answer (o <- first ;; o2 <- perform_all Tet moved o ;; holds_point o2 p tol) = Some true.
Proof. vm_compute. auto. Qed.
Print Assumptions C94_contains_refuted.

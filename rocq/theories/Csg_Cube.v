(** The cube is a convex body; boolean operations on convex bodies. *)
From Coq Require Import QArith Qabs ZArith List Bool Lia Lqa Setoid.
From Verif Require Import Prelude Vec Seg_Model Seg_Spec Seg_Proofs Seg_Lists Face_Spec Grid_Spec Poly_Model Poly_Spec Poly_Proofs Poly_Clip Csg_Model Csg_Spec Csg_Hull Csg_Ring Csg_Split Csg_Proofs Csg_Bool.
Import ListNotations.
Open Scope Q_scope.

(** ** Rectangles *)
Definition at_ (a u v : coord) (s : Q * Q) : coord := vadd a (vadd (vscale (fst s) u) (vscale (snd s) v)).

Lemma turn_at n a u v x y z : n =v= cross u v ->
  turn n (at_ a u v x) (at_ a u v y) (at_ a u v z) ==
  dot n n * ((fst y - fst x) * (snd z - snd x) - (fst z - fst x) * (snd y - snd x)).
Proof.
  intros E. assert (T : turn n (at_ a u v x) (at_ a u v y) (at_ a u v z) ==
    dot n (cross u v) * ((fst y - fst x) * (snd z - snd x) - (fst z - fst x) * (snd y - snd x))) by (unfold at_; tring).
  rewrite T, <- E. reflexivity.
Qed.

Definition rect_list (a b c d : coord) : list coord := [a; b; c; d; a].
Definition rect_par : list (Q * Q) := [(0, 0); (1, 0); (1, 1); (0, 1); (0, 0)].

Lemma rect_convex a b c d n : c =v= vadd a (vadd (vsub b a) (vsub d a)) -> n =v= cross (vsub b a) (vsub d a) -> ~ n =v= vzero ->
  convex_poly (Poly (rect_list a b c d) n).
Proof.
  intros Ec En Hn. set (u := vsub b a) in *. set (v := vsub d a) in *.
  assert (P : forall i, nth i (rect_list a b c d) vzero =v= if Nat.ltb i 5 then at_ a u v (nth i rect_par (0, 0)) else vzero).
  { intros i. destruct i as [|[|[|[|[|i]]]]]; cbn [Nat.ltb Nat.leb nth rect_list rect_par]; try (unfold at_, u, v; cbn [fst snd]; vring).
    - rewrite Ec. unfold at_. cbn [fst snd]. vring.
    - destruct i; reflexivity. }
  split.
  - split; [exact Hn|]. exists (dot n a). cbn [pn pv]. intros x Hx.
    assert (Du : dot n u == 0) by (rewrite En; unfold dot; cbn [cross cx cy cz]; ring).
    assert (Dv : dot n v == 0) by (rewrite En; unfold dot; cbn [cross cx cy cz]; ring).
    destruct Hx as [<-|[<-|[<-|[<-|[<-|[]]]]]]; try reflexivity.
    + assert (b =v= vadd a u) as -> by (unfold u; vring). rewrite dot_vadd, Du. ring.
    + rewrite Ec, !dot_vadd, Du, Dv. ring.
    + assert (d =v= vadd a v) as -> by (unfold v; vring). rewrite dot_vadd, Dv. ring.
  - cbn [pn pv]. intros i j k O K. cbn [length rect_list] in K. rewrite !P.
    destruct (Nat.ltb_spec i 5); [|lia]. destruct (Nat.ltb_spec j 5); [|lia]. destruct (Nat.ltb_spec k 5); [|lia].
    rewrite (turn_at n a u v) by exact En.
    assert (N : 0 <= dot n n) by (unfold dot; pose proof (Qsq_nonneg (cx n)); pose proof (Qsq_nonneg (cy n)); pose proof (Qsq_nonneg (cz n)); lra).
    apply Qmult_le_0_compat; [exact N|].
    destruct i as [|[|[|[|[|i]]]]]; [| | | | |lia]; (destruct j as [|[|[|[|[|j]]]]]; [| | | | |lia]); try lia;
      (destruct k as [|[|[|[|[|k]]]]]; [| | | | |lia]); try lia; cbn [nth rect_par fst snd]; lra.
Qed.

Lemma rect_closed a b c d : ~ d =v= a -> pl_close [a; b; c; d] 0 = rect_list a b c d.
Proof.
  intros H. unfold pl_close. cbn [length Nat.ltb Nat.leb]. unfold vtx. cbn [length Nat.sub Nat.modulo Nat.divmod fst snd nth].
  destruct (norm_le (vsub d a) 0) eqn:E; [|reflexivity]. exfalso. apply H.
  apply norm_le_true in E. destruct E as [_ E]. unfold norm2 in E.
  assert (Z : dot (vsub d a) (vsub d a) == 0).
  { unfold dot in *. pose proof (Qsq_nonneg (cx (vsub d a))). pose proof (Qsq_nonneg (cy (vsub d a))). pose proof (Qsq_nonneg (cz (vsub d a))). lra. }
  apply dot_self_zero in Z. destruct Z as (X & Y & W). cbn [vsub vzero cx cy cz] in *. repeat split; lra.
Qed.

Lemma find_or_last (f : coord -> bool) l n : l <> [] -> (forall x, In x l -> x =v= n) ->
  (match find f l with Some x => x | None => last l vzero end) =v= n.
Proof.
  intros Hne H. destruct (find f l) as [x|] eqn:E; [apply H; now apply find_some in E|]. apply H.
  clear H E. induction l as [|x [|y l] IH]; [now elim Hne|now left|]. right. apply IH. discriminate.
Qed.

Lemma rect_normal a b c d : c =v= vadd a (vadd (vsub b a) (vsub d a)) -> pg_normal_any (rect_list a b c d) =v= cross (vsub b a) (vsub d a).
Proof.
  intros Ec. unfold pg_normal_any, pg_normal. apply find_or_last; [discriminate|].
  assert (K : forall x y z w, x =v= y -> z =v= w -> cross x z =v= cross y w) by (intros x y z w -> ->; reflexivity).
  cbn [length rect_list Nat.sub seq map]. intros x [<-|[<-|[<-|[]]]]; unfold corner, vtx, rect_list; cbn [length Nat.add Nat.sub Nat.modulo Nat.divmod fst snd nth].
  - rewrite Ec. vring.
  - rewrite Ec. vring.
  - rewrite Ec. vring.
Qed.

(** ** The cube *)
Section Cube.
Variables c r : coord.
Hypothesis (rx : 0 < cx r) (ry : 0 < cy r) (rz : 0 < cz r).
Let V := cube_vertex c r.
Let face (i : nat) : poly := nth i (csg_cube c r) (Poly [] vzero).

Ltac cubev := unfold V, cube_vertex; cbn [Nat.testbit Nat.odd Nat.even Nat.div2 negb]; repeat split; cbn [vadd vsub vscale vzero cross cx cy cz].

Lemma cube_quad i j k l : ~ V l =v= V i -> V k =v= vadd (V i) (vadd (vsub (V j) (V i)) (vsub (V l) (V i))) ->
  let q := (let vs := pl_close (map V [i; j; k; l]) 0 in Poly vs (pg_normal_any vs)) in
  pv q = rect_list (V i) (V j) (V k) (V l) /\ pn q =v= cross (vsub (V j) (V i)) (vsub (V l) (V i)).
Proof.
  intros H E. cbn zeta. cbn [map]. rewrite rect_closed by exact H. cbn [pv pn]. split; [reflexivity|now apply rect_normal].
Qed.

(** Direction of the face, its coordinate and the sign. *)
Definition height (i : nat) (p : coord) : Q :=
  match i with
  | 0%nat => - (cx p - cx c) - cx r | 1%nat => cx p - cx c - cx r
  | 2%nat => - (cy p - cy c) - cy r | 3%nat => cy p - cy c - cy r
  | 4%nat => - (cz p - cz c) - cz r | _ => cz p - cz c - cz r
  end.
Definition size (i : nat) : Q :=
  match i with 0%nat | 1%nat => 4 * (cy r * cz r) | 2%nat | 3%nat => 4 * (cx r * cz r) | _ => 4 * (cx r * cy r) end.
Definition unit_ (i : nat) : coord :=
  match i with 0%nat => Coord (- (1)) 0 0 | 1%nat => Coord 1 0 0 | 2%nat => Coord 0 (- (1)) 0 | 3%nat => Coord 0 1 0 | 4%nat => Coord 0 0 (- (1)) | _ => Coord 0 0 1 end.

Lemma size_pos i : 0 < size i.
Proof.
  assert (0 < cy r * cz r) by nra. assert (0 < cx r * cz r) by nra. assert (0 < cx r * cy r) by nra.
  destruct i as [|[|[|[|i]]]]; cbn [size]; lra.
Qed.

Lemma veq_tr x y z : x =v= y -> y =v= z -> x =v= z.
Proof. intros -> ->. reflexivity. Qed.

Lemma cube_face i : (i < 6)%nat -> exists j0 j1 j2 j3, nth i cube_faces [] = [j0; j1; j2; j3] /\
  pv (face i) = rect_list (V j0) (V j1) (V j2) (V j3) /\
  V j2 =v= vadd (V j0) (vadd (vsub (V j1) (V j0)) (vsub (V j3) (V j0))) /\
  pn (face i) =v= cross (vsub (V j1) (V j0)) (vsub (V j3) (V j0)) /\ pn (face i) =v= vscale (size i) (unit_ i).
Proof.
  intros Hi.
  destruct i as [|[|[|[|[|[|i]]]]]]; [| | | | | |lia];
  match goal with |- context [nth ?n cube_faces []] => let l := eval compute in (nth n cube_faces []) in
    match l with [?a; ?b; ?c'; ?d] => exists a, b, c', d;
      assert (H : ~ V d =v= V a) by (intros (X1 & X2 & X3); unfold V, cube_vertex in *; cbn [Nat.testbit Nat.odd Nat.even Nat.div2 negb cx cy cz] in *; lra);
      assert (E : V c' =v= vadd (V a) (vadd (vsub (V b) (V a)) (vsub (V d) (V a)))) by (cubev; ring);
      destruct (cube_quad a b c' d H E) as [E1 E2];
      split; [reflexivity|]; split; [exact E1|]; split; [exact E|]; split; [exact E2|]; apply (veq_tr _ _ _ E2); unfold size, unit_; cubev; ring
    end end.
Qed.

Lemma face_in q : In q (csg_cube c r) -> exists i, (i < 6)%nat /\ q = face i.
Proof. intros H. destruct (In_nth _ _ (Poly [] vzero) H) as (i & Hi & E). exists i. split; [exact Hi|now symmetry]. Qed.
Lemma in_face i : (i < 6)%nat -> In (face i) (csg_cube c r).
Proof. intros H. apply nth_In. exact H. Qed.

Lemma face_above i p : (i < 6)%nat -> above (face i) p == size i * height i p.
Proof.
  intros Hi. destruct (cube_face i Hi) as (j0 & j1 & j2 & j3 & Ej & Ev & _ & _ & En). unfold above. rewrite En, Ev. cbn [hd rect_list].
  rewrite !dot_scale_l.
  destruct i as [|[|[|[|[|[|i]]]]]]; [| | | | | |lia]; injection Ej as <- <- <- <-; unfold V, cube_vertex, unit_, height, size, dot;
    cbn [Nat.testbit Nat.odd Nat.even Nat.div2 negb cx cy cz]; ring.
Qed.

Lemma vertex_height i k : height i (V k) <= 0.
Proof.
  unfold V, cube_vertex, height. destruct (Nat.testbit k 0), (Nat.testbit k 1), (Nat.testbit k 2); destruct i as [|[|[|[|[|i]]]]]; cbn [cx cy cz]; lra.
Qed.

Lemma face_vertex i v : (i < 6)%nat -> In v (pv (face i)) -> exists k, v = V k.
Proof.
  intros Hi Hv. destruct (cube_face i Hi) as (j0 & j1 & j2 & j3 & _ & Ev & _). rewrite Ev in Hv.
  destruct Hv as [<-|[<-|[<-|[<-|[<-|[]]]]]]; eauto.
Qed.

Lemma unit_nonzero i : ~ vscale (size i) (unit_ i) =v= vzero.
Proof.
  pose proof (size_pos i) as S. intros (X & Y & Z). unfold unit_ in *. set (s := size i) in *. clearbody s.
  destruct i as [|[|[|[|[|i]]]]]; cbn [vscale vzero cx cy cz] in *; lra.
Qed.

Lemma cube_convex_body : convex_body (csg_cube c r).
Proof.
  assert (CV : Forall convex_poly (csg_cube c r)).
  { apply Forall_forall. intros q Hq. destruct (face_in q Hq) as (i & Hi & ->).
    destruct (cube_face i Hi) as (j0 & j1 & j2 & j3 & _ & Ev & Ec & En & Eu). pose proof (unit_nonzero i) as U. rewrite <- Eu in U.
    assert (Ef : face i = Poly (rect_list (V j0) (V j1) (V j2) (V j3)) (pn (face i))) by (rewrite <- Ev; now destruct (face i)).
    rewrite Ef. now apply rect_convex. }
  split; [discriminate|]. split; [|split; [exact CV|split]].
  - apply Forall_forall. intros q Hq. rewrite Forall_forall in CV. split; [apply (CV q Hq)|].
    destruct (face_in q Hq) as (i & Hi & ->). destruct (cube_face i Hi) as (j0 & j1 & j2 & j3 & _ & Ev & _). rewrite Ev. discriminate.
  - intros q s v Hq Hs Hv. destruct (face_in q Hq) as (i & Hi & ->). destruct (face_in s Hs) as (j & Hj & ->).
    destruct (face_vertex j v Hj Hv) as (k & ->). rewrite face_above by exact Hi. pose proof (vertex_height i k). pose proof (size_pos i). nra.
  - intros q s Hq Hs H. destruct (face_in q Hq) as (i & Hi & ->). destruct (face_in s Hs) as (j & Hj & ->).
    destruct (Nat.eq_dec i j) as [<-|D]; [exists 1; split; [lra|vring]|]. exfalso.
    destruct (cube_face j Hj) as (j0 & j1 & j2 & j3 & Ej & Ev & _). rewrite Ev in H.
    assert (Hz : forall k, In k [j0; j1; j2; j3] -> height i (V k) == 0).
    { intros k Hk. assert (X : above (face i) (V k) == 0).
      { apply H. destruct Hk as [<-|[<-|[<-|[<-|[]]]]]; cbn; tauto. }
      rewrite face_above in X by exact Hi. pose proof (size_pos i) as S. apply Qmult_integral in X. destruct X as [X|X]; [lra|exact X]. }
    pose proof (Hz j0 (or_introl eq_refl)) as Z0. pose proof (Hz j1 (or_intror (or_introl eq_refl))) as Z1.
    pose proof (Hz j2 (or_intror (or_intror (or_introl eq_refl)))) as Z2. clear Hz H Ev.
    destruct i as [|[|[|[|[|[|i]]]]]]; [| | | | | |lia]; (destruct j as [|[|[|[|[|[|j]]]]]]; [| | | | | |lia]); try lia;
      injection Ej as <- <- <- <-; unfold V, cube_vertex, height in *; cbn [Nat.testbit Nat.odd Nat.even Nat.div2 negb cx cy cz] in *; lra.
Qed.

Lemma cube_within p : within (csg_cube c r) p <->
  (cx c - cx r < cx p < cx c + cx r) /\ (cy c - cy r < cy p < cy c + cy r) /\ (cz c - cz r < cz p < cz c + cz r).
Proof.
  assert (S : forall i, (i < 6)%nat -> (above (face i) p < 0 <-> height i p < 0)).
  { intros i Hi. rewrite face_above by exact Hi. pose proof (size_pos i). split; intros; nra. }
  split.
  - intros H. assert (G : forall i, (i < 6)%nat -> height i p < 0) by (intros i Hi; apply S; [exact Hi|apply H; now apply in_face]).
    pose proof (G 0%nat ltac:(lia)) as G0. pose proof (G 1%nat ltac:(lia)) as G1. pose proof (G 2%nat ltac:(lia)) as G2. pose proof (G 3%nat ltac:(lia)) as G3.
    pose proof (G 4%nat ltac:(lia)) as G4. pose proof (G 5%nat ltac:(lia)) as G5.
    unfold height in *. repeat split; lra.
  - intros H q Hq. destruct (face_in q Hq) as (i & Hi & ->). apply S; [exact Hi|].
    destruct i as [|[|[|[|[|[|i]]]]]]; [| | | | | |lia]; unfold height; lra.
Qed.
End Cube.

(** ** Operations on convex bodies *)
Lemma body_tree L : convex_body L -> exists t, bsp_of 0 L = Ok t /\ forall p,
    (outside_open t p <-> beyond L p) /\ (inside_open t p <-> within L p) /\
    (outside_closed 0 t p <-> exists q, In q L /\ 0 <= above q p) /\
    (inside_closed 0 t p <-> forall q, In q L -> above q p <= 0).
Proof.
  intros (N & U & _ & CS). assert (Ll : (length L < S (length L))%nat) by lia. destruct (build_convex (S (length L)) L N U CS Ll) as (t & E & _ & H). exists t. split; [|exact H].
  unfold bsp_of. destruct L; [now elim N|exact E].
Qed.

Lemma closed_not_within L p : L <> [] -> (exists q, In q L /\ 0 <= above q p) -> ~ within L p.
Proof. intros _ (q & Hq & X) W. specialize (W q Hq). lra. Qed.
Lemma inside_not_beyond L p : (forall q, In q L -> above q p <= 0) -> ~ beyond L p.
Proof. intros H (q & Hq & X). specialize (H q Hq). lra. Qed.

Section Bodies.
Variables A B : list poly.
Hypothesis (CA : convex_body A) (CB : convex_body B).

Lemma add_bodies : exists R, csg_add 0 A B = Ok R /\
  (forall r p, In r R -> points r p ->
     (exists q, In q A /\ pn r = pn q /\ points q p /\ ~ within B p) \/
     (exists q, In q B /\ pn r = pn q /\ points q p /\ ~ within A p)) /\
  (forall q p, In q A -> points q p -> beyond B p -> exists r, In r R /\ pn r = pn q /\ points r p) /\
  (forall q p, In q B -> points q p -> beyond A p -> exists r, In r R /\ pn r = pn q /\ points r p).
Proof.
  destruct (body_tree A CA) as (ta & Ea & Ta). destruct (body_tree B CB) as (tb & Eb & Tb).
  destruct CA as (NA & UA & VA & _). destruct CB as (NB & UB & VB & _).
  destruct (add_spec 0 A B ltac:(lra) NA NB UA UB) as (ta' & tb' & R & Ea' & Eb' & ER & S & C).
  rewrite Ea in Ea'. injection Ea' as <-. rewrite Eb in Eb'. injection Eb' as <-. destruct (C eq_refl VA VB) as [C1 C2].
  exists R. split; [exact ER|]. split; [|split].
  - intros r p Hr Hp. destruct (S r Hr) as [(q & Hq & P & O)|(q & Hq & P & O)]; [left|right]; exists q; (split; [exact Hq|]);
      (split; [apply P|]); (split; [exact (part_points _ _ _ P Hp)|]); apply closed_not_within; try assumption; [apply Tb, O, Hp|apply Ta, O, Hp].
  - intros q p Hq Hp O. apply C1; try assumption. now apply Tb.
  - intros q p Hq Hp O. apply C2; try assumption. now apply Ta.
Qed.

Lemma subtract_bodies : exists R, csg_subtract 0 A B = Ok R /\
  (forall r p, In r R -> points r p ->
     (exists q, In q A /\ pn r = pn q /\ points q p /\ ~ within B p) \/
     (exists q, In q B /\ pn r = vopp (pn q) /\ points q p /\ ~ beyond A p)) /\
  (forall q p, In q A -> points q p -> beyond B p -> exists r, In r R /\ pn r = pn q /\ points r p) /\
  (forall q p, In q B -> points q p -> within A p -> exists r, In r R /\ pn r = vopp (pn q) /\ points r p).
Proof.
  destruct (body_tree A CA) as (ta & Ea & Ta). destruct (body_tree B CB) as (tb & Eb & Tb).
  destruct CA as (NA & UA & VA & _). destruct CB as (NB & UB & VB & _).
  destruct (subtract_spec 0 A B ltac:(lra) NA NB UA UB) as (ta' & tb' & R & Ea' & Eb' & ER & S & C).
  rewrite Ea in Ea'. injection Ea' as <-. rewrite Eb in Eb'. injection Eb' as <-. destruct (C eq_refl VA VB) as [C1 C2].
  exists R. split; [exact ER|]. split; [|split].
  - intros r p Hr Hp. destruct (S r Hr) as [(q & Hq & P & O)|(q & Hq & P & O)]; [left|right]; exists q; (split; [exact Hq|]).
    + split; [apply P|]. split; [exact (part_points _ _ _ P Hp)|]. apply closed_not_within; [assumption|apply Tb, O, Hp].
    + split; [apply P|]. split; [apply points_invert; exact (part_points _ _ _ P Hp)|]. apply inside_not_beyond. apply Ta, O, Hp.
  - intros q p Hq Hp O. apply C1; try assumption. now apply Tb.
  - intros q p Hq Hp O. apply C2; try assumption. now apply Ta.
Qed.

Lemma intersect_bodies : exists R, csg_intersect 0 A B = Ok R /\
  (forall r p, In r R -> points r p ->
     (exists q, In q A /\ pn r = pn q /\ points q p /\ ~ beyond B p) \/
     (exists q, In q B /\ pn r = pn q /\ points q p /\ ~ beyond A p)) /\
  (forall q p, In q A -> points q p -> within B p -> exists r, In r R /\ pn r = pn q /\ points r p) /\
  (forall q p, In q B -> points q p -> within A p -> exists r, In r R /\ pn r = pn q /\ points r p).
Proof.
  destruct (body_tree A CA) as (ta & Ea & Ta). destruct (body_tree B CB) as (tb & Eb & Tb).
  destruct CA as (NA & UA & VA & _). destruct CB as (NB & UB & VB & _).
  destruct (intersect_spec 0 A B ltac:(lra) NA NB UA UB) as (ta' & tb' & R & Ea' & Eb' & ER & S & C).
  rewrite Ea in Ea'. injection Ea' as <-. rewrite Eb in Eb'. injection Eb' as <-. destruct (C eq_refl VA VB) as [C1 C2].
  exists R. split; [exact ER|]. split; [|split].
  - intros r p Hr Hp. destruct (S r Hr) as [(q & Hq & P & O)|(q & Hq & P & O)]; [left|right]; exists q; (split; [exact Hq|]);
      (split; [apply P|]); (split; [exact (part_points _ _ _ P Hp)|]); apply inside_not_beyond; [apply Tb, O, Hp|apply Ta, O, Hp].
  - intros q p Hq Hp O. apply C1; try assumption. now apply Tb.
  - intros q p Hq Hp O. apply C2; try assumption. now apply Ta.
Qed.
End Bodies.

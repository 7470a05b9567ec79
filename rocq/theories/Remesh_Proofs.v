(** Flipping edges of triangulated surfaces. *)
From Coq Require Import ZArith List Bool QArith Reals Qreals Lia Lra.
From Verif Require Import Prelude Vec ZMap Mesh_Proofs Surf_Model Surf_Spec Surf_Proofs Remesh_Model Remesh_Spec.
Import ListNotations.
Open Scope Z_scope.
Ltac Zify.zify_post_hook ::= Z.div_mod_to_equations.

Lemma same_point_ok a b : same_point a b = true <-> a =v= b.
Proof. unfold same_point, veq. rewrite !andb_true_iff, !Qeq_bool_iff. tauto. Qed.
Lemma same_point_eq a a' b : a =v= a' -> same_point a b = same_point a' b.
Proof. intros E. apply eq_true_iff_eq. rewrite !same_point_ok. rewrite E. tauto. Qed.
Definition step_from (x y a b : coord) : Z := if same_point a x && same_point b y then 1 else 0.
Definition skew (x y a b : coord) : Z := step_from x y a b - step_from y x a b.
Lemma skew_swap x y a b : skew x y b a = - skew x y a b.
Proof. unfold skew, step_from. rewrite (andb_comm (same_point b x)), (andb_comm (same_point b y)). lia. Qed.
Lemma skew_eq x y a b a' b' : a =v= a' -> b =v= b' -> skew x y a b = skew x y a' b'.
Proof. intros A B. unfold skew, step_from. now rewrite !(same_point_eq a a' _ A), !(same_point_eq b b' _ B). Qed.
Definition tri_skew (s : surf) (x y : coord) (id : Z) : Z := skew x y (corner s id 0) (corner s id 1) + skew x y (corner s id 1) (corner s id 2) + skew x y (corner s id 2) (corner s id 0).
Fixpoint isum (l : list Z) (f : Z -> Z) : Z := match l with [] => 0 | x :: r => f x + isum r f end.
Lemma isum_map l f : fold_right Z.add 0 (map f l) = isum l f.
Proof. induction l as [|x l IH]; [reflexivity|]. cbn [map fold_right isum]. now rewrite IH. Qed.
Lemma isum_sub l f g : isum l f - isum l g = isum l (fun x => f x - g x).
Proof. induction l as [|x l IH]; cbn [isum]; lia. Qed.
Lemma isum_ext l f g : (forall x, In x l -> f x = g x) -> isum l f = isum l g.
Proof. induction l as [|x l IH]; intros H; [reflexivity|]. cbn [isum]. rewrite (H x (or_introl eq_refl)), IH; [reflexivity|]. intros; apply H; now right. Qed.
Lemma isum_upd l i f f' : NoDup l -> In i l -> (forall x, In x l -> x <> i -> f' x = f x) -> isum l f' = isum l f - f i + f' i.
Proof.
  induction l as [|x l IH]; intros N I H; [destruct I|]. inversion N as [|? ? Nx N']; subst. cbn [isum]. destruct (Z.eq_dec x i) as [->|E].
  - rewrite (isum_ext l f' f); [lia|]. intros y Hy. apply H; [now right|]. intros ->. contradiction.
  - destruct I as [->|I]; [contradiction|]. rewrite (IH N' I); [|intros y Hy; apply H; now right]. rewrite (H x (or_introl eq_refl) E). lia.
Qed.
Lemma isum_upd2 l i j f f' : NoDup l -> In i l -> In j l -> i <> j -> (forall x, In x l -> x <> i -> x <> j -> f' x = f x) -> f' i + f' j = f i + f j -> isum l f' = isum l f.
Proof.
  intros N I J E H Q. set (h := fun x => if x =? i then f' i else f x). rewrite (isum_upd l j h f' N J).
  - rewrite (isum_upd l i f h N I); [unfold h; rewrite Z.eqb_refl; destruct (Z.eqb_spec j i); [congruence|lia]|]. intros x Hx Ne. unfold h. destruct (Z.eqb_spec x i); [contradiction|reflexivity].
  - intros x Hx Ne. unfold h. destruct (Z.eqb_spec x i) as [->|]; [reflexivity|]. now apply H.
Qed.
Lemma net_sum s x y : net s x y = isum (u_ids s) (tri_skew s x y).
Proof.
  unfold net, all_runs. rewrite !isum_map, isum_sub. apply isum_ext. intros id _. unfold runs, tri_skew, skew, step_from. cbn [map fold_right].
  rewrite (corner_mod s id (0 + 1) 1), (corner_mod s id (1 + 1) 2), (corner_mod s id (2 + 1) 0) by reflexivity. lia.
Qed.
Lemma tri_skew_is s id x y a b c : triangle_is s id a b c -> tri_skew s x y id = skew x y a b + skew x y b c + skew x y c a.
Proof.
  intros (k & A & B & C). unfold tri_skew. destruct (tget_cases k) as [E|[E|E]].
  - rewrite (corner_mod s id k 0) in A by lia. rewrite (corner_mod s id (k + 1) 1) in B by lia. rewrite (corner_mod s id (k + 2) 2) in C by lia.
    rewrite (skew_eq x y _ _ _ _ A B), (skew_eq x y _ _ _ _ B C), (skew_eq x y _ _ _ _ C A). lia.
  - rewrite (corner_mod s id k 1) in A by lia. rewrite (corner_mod s id (k + 1) 2) in B by lia. rewrite (corner_mod s id (k + 2) 0) in C by lia.
    rewrite (skew_eq x y _ _ _ _ A B), (skew_eq x y _ _ _ _ B C), (skew_eq x y _ _ _ _ C A). lia.
  - rewrite (corner_mod s id k 2) in A by lia. rewrite (corner_mod s id (k + 1) 0) in B by lia. rewrite (corner_mod s id (k + 2) 1) in C by lia.
    rewrite (skew_eq x y _ _ _ _ A B), (skew_eq x y _ _ _ _ B C), (skew_eq x y _ _ _ _ C A). lia.
Qed.
Lemma is_done_ok l id : is_done l id = true <-> In id l.
Proof. unfold is_done. rewrite existsb_exists. split; [intros (x & H & E); apply Z.eqb_eq in E; now subst|]. intros H. exists id. split; [exact H|apply Z.eqb_refl]. Qed.
Lemma is_done_not l id : is_done l id = false <-> ~ In id l.
Proof. rewrite <- is_done_ok. destruct (is_done l id); split; congruence. Qed.
Lemma corner_facet s s' id k : facet s' id = facet s id -> corner s' id k = corner s id k.
Proof. intros E. unfold corner. now rewrite E. Qed.
Lemma triangle_facet s s' id a b c : facet s' id = facet s id -> triangle_is s id a b c -> triangle_is s' id a b c.
Proof. intros E (k & H). exists k. now rewrite !(corner_facet s s' id _ E). Qed.
Lemma triangle_corners s id a b c : triangle_is s id a b c -> forall k, corner s id k =v= a \/ corner s id k =v= b \/ corner s id k =v= c.
Proof.
  intros (j & A & B & C) k. assert (M : k mod 3 = j mod 3 \/ k mod 3 = (j + 1) mod 3 \/ k mod 3 = (j + 2) mod 3) by lia.
  destruct M as [M|[M|M]]; [left; rewrite (corner_mod s id k j M); exact A|right; left; rewrite (corner_mod s id k (j + 1) M); exact B|right; right; rewrite (corner_mod s id k (j + 2) M); exact C].
Qed.
Lemma triangle_vertex s id a b c : In id (u_ids s) -> triangle_is s id a b c -> vertex_of s a /\ vertex_of s b /\ vertex_of s c.
Proof. intros I (k & A & B & C). split; [now exists id, k|]. split; [now exists id, (k + 1)|now exists id, (k + 2)]. Qed.

Section Flip.
Variables (swap tiny : R) (memo : zmap coord) (s : surf).
Hypothesis G : glued s.
Definition flat_if (a b : Z) : Prop := right memo s -> nearly_flat swap tiny s a b.
(** What holds during the loop. *)
Record flipping (st : flip_state) : Prop := {
  fl_ids : u_ids (f_surf st) = u_ids s;
  fl_well : well_stored (f_surf st);
  fl_links : forall id k, link (f_surf st) id k = link s id k;
  fl_same : forall id, ~ In id (f_done st) -> facet (f_surf st) id = facet s id;
  fl_pairs : forall id, In id (f_done st) -> exists a b, (id = a \/ id = b) /\ In a (f_done st) /\ In b (f_done st) /\ exchanged s (f_surf st) a b /\ flat_if a b;
  fl_net : forall x y, net (f_surf st) x y = net s x y;
  fl_memo : right memo s -> forall id n, ~ In id (f_done st) -> zlookup id (f_memo st) = Some n -> n = raw_normal (facet s id) }.
Lemma flipping_start : flipping (FState s memo []).
Proof. constructor; cbn [f_surf f_done f_memo]; try reflexivity; [apply G|intros id []|]. intros Rm id n _ H. now apply Rm. Qed.
Lemma recall_right st id : flipping st -> right memo s -> ~ In id (f_done st) -> recall (zlookup id (f_memo st)) (facet s id) = raw_normal (facet s id).
Proof. intros F Rm N. unfold recall. destruct (zlookup id (f_memo st)) as [n|] eqn:E; [|reflexivity]. now apply (fl_memo st F Rm id n N). Qed.
Lemma flipping_memo st id : flipping st -> flipping (FState (f_surf st) (zinsert id (recall (zlookup id (f_memo st)) (facet s id)) (f_memo st)) (f_done st)).
Proof.
  intros F. destruct F. constructor; cbn [f_surf f_done f_memo]; try assumption. intros Rm id' n N. rewrite zlookup_insert. destruct (Z.eqb_spec id' id) as [->|]; [|now apply fl_memo0].
  intros [= <-]. apply (recall_right st); [constructor; assumption|exact Rm|exact N].
Qed.
Lemma facet_put2 u a b fa fb id : a <> b -> facet (u_put (u_put u a fa) b fb) id = if id =? b then fb else if id =? a then fa else facet u id.
Proof. intros N. now rewrite !facet_put. Qed.
(** The two triangles of a flip. *)
Lemma swapped_is u id nb fa fb j p3 : id <> nb -> In j [0; 1; 2] ->
  fa = SFacet (fst (swapped j (corner s id 0) (corner s id 1) (corner s id 2) p3)) (sf_nb (facet s id)) (sf_vn (facet s id)) ->
  fb = SFacet (snd (swapped j (corner s id 0) (corner s id 1) (corner s id 2) p3)) (sf_nb (facet s nb)) (sf_vn (facet s nb)) ->
  let u' := u_put (u_put u id fa) nb fb in let q0 := corner s id j in let q1 := corner s id (j + 1) in let q2 := corner s id (j + 2) in
  triangle_is u' id q0 p3 q2 /\ triangle_is u' nb p3 q1 q2 \/ triangle_is u' nb q0 p3 q2 /\ triangle_is u' id p3 q1 q2.
Proof.
  intros N J -> ->. cbv zeta. unfold triangle_is.
  assert (Ca : forall k, corner (u_put (u_put u id (SFacet (fst (swapped j (corner s id 0) (corner s id 1) (corner s id 2) p3)) (sf_nb (facet s id)) (sf_vn (facet s id)))) nb
    (SFacet (snd (swapped j (corner s id 0) (corner s id 1) (corner s id 2) p3)) (sf_nb (facet s nb)) (sf_vn (facet s nb)))) id k = tget (fst (swapped j (corner s id 0) (corner s id 1) (corner s id 2) p3)) k).
  { intros k. unfold corner at 1. rewrite !facet_put. destruct (Z.eqb_spec id nb); [contradiction|]. rewrite Z.eqb_refl. reflexivity. }
  assert (Cb : forall k, corner (u_put (u_put u id (SFacet (fst (swapped j (corner s id 0) (corner s id 1) (corner s id 2) p3)) (sf_nb (facet s id)) (sf_vn (facet s id)))) nb
    (SFacet (snd (swapped j (corner s id 0) (corner s id 1) (corner s id 2) p3)) (sf_nb (facet s nb)) (sf_vn (facet s nb)))) nb k = tget (snd (swapped j (corner s id 0) (corner s id 1) (corner s id 2) p3)) k).
  { intros k. unfold corner at 1. rewrite facet_put, Z.eqb_refl. reflexivity. }
  cbn in J. destruct J as [<-|[<-|[<-|[]]]]; cbn [swapped Z.eqb fst snd] in Ca, Cb.
  - left. split; [exists 0|exists 2]; rewrite ?Ca, ?Cb; cbn; repeat split; reflexivity.
  - left. split; [exists 1|exists 1]; rewrite ?Ca, ?Cb; cbn; rewrite ?(corner_mod s id 3 0) by reflexivity; repeat split; reflexivity.
  - right. split; [exists 1|exists 2]; rewrite ?Ca, ?Cb; cbn; rewrite ?(corner_mod s id 3 0), ?(corner_mod s id 4 1) by reflexivity; repeat split; reflexivity.
Qed.
Lemma link_facet u id k : link u id k = (tget (sf_nb (facet u id)) k, tget (sf_vn (facet u id)) k).
Proof. reflexivity. Qed.
Lemma exchanged_kept u u' a b : facet u' a = facet u a -> facet u' b = facet u b -> exchanged s u a b -> exchanged s u' a b.
Proof.
  intros Ea Eb (N & Ia & Ib & (p0 & p1 & p2 & p3 & T1 & T2 & T3) & Q). split; [exact N|]. split; [exact Ia|]. split; [exact Ib|]. split; [|now rewrite Ea, Eb].
  exists p0, p1, p2, p3. split; [exact T1|]. split; [exact T2|]. destruct T3 as [[T3 T4]|[T3 T4]]; [left|right]; split; eapply triangle_facet; eassumption.
Qed.
Lemma put2_ok st id nb fa fb j : flipping st -> In id (u_ids s) -> In nb (u_ids s) -> id <> nb -> ~ In id (f_done st) -> ~ In nb (f_done st) -> In j [0; 1; 2] ->
  corner s nb (apart s id j + 1) =v= corner s id (j + 1) -> corner s nb (apart s id j + 2) =v= corner s id j ->
  fa = SFacet (fst (swapped j (corner s id 0) (corner s id 1) (corner s id 2) (corner s nb (apart s id j)))) (sf_nb (facet s id)) (sf_vn (facet s id)) ->
  fb = SFacet (snd (swapped j (corner s id 0) (corner s id 1) (corner s id 2) (corner s nb (apart s id j)))) (sf_nb (facet s nb)) (sf_vn (facet s nb)) ->
  (Rmin (quality (facet s id)) (quality (facet s nb)) < Rmin (quality fa) (quality fb))%R -> flat_if id nb ->
  flipping (FState (u_put (u_put (f_surf st) id fa) nb fb) (f_memo st) (id :: nb :: f_done st)).
Proof.
  intros F Ii In' N Ni Nn J O1 O2 Ea Eb Q Fl. set (u := f_surf st). set (u' := u_put (u_put u id fa) nb fb).
  assert (Tr := swapped_is u id nb fa fb j _ N J Ea Eb). cbv zeta in Tr. fold u' in Tr.
  assert (FP : forall x, facet u' x = if x =? nb then fb else if x =? id then fa else facet u x) by (intros x; unfold u'; now rewrite !facet_put).
  assert (Oth : forall x, x <> id -> x <> nb -> facet u' x = facet u x) by (intros x H1 H2; rewrite FP; destruct (Z.eqb_spec x nb); [contradiction|]; destruct (Z.eqb_spec x id); [contradiction|reflexivity]).
  assert (T0 : triangle_is s id (corner s id j) (corner s id (j + 1)) (corner s id (j + 2))) by (exists j; split; [reflexivity|]; split; reflexivity).
  assert (T1 : triangle_is s nb (corner s id (j + 1)) (corner s id j) (corner s nb (apart s id j))). { exists (apart s id j + 1). split; [exact O1|]. split; [replace (apart s id j + 1 + 1) with (apart s id j + 2) by lia; exact O2|]. rewrite (corner_mod s nb (apart s id j + 1 + 2) (apart s id j)) by lia. reflexivity. }
  assert (Ex : exchanged s u' id nb). { split; [exact N|]. split; [exact Ii|]. split; [exact In'|]. split; [exists (corner s id j), (corner s id (j + 1)), (corner s id (j + 2)), (corner s nb (apart s id j)); auto|].
    rewrite !FP. rewrite !Z.eqb_refl. destruct (Z.eqb_spec id nb); [contradiction|]. exact Q. }
  constructor; cbn [f_surf f_done f_memo].
  - apply (fl_ids st F).
  - unfold u'. apply well_put; [apply well_put; [apply (fl_well st F)|]|]; cbn [u_put u_ids]; unfold u; rewrite (fl_ids st F); assumption.
  - intros x k. rewrite (link_facet u'), FP. destruct (Z.eqb_spec x nb) as [->|]; [rewrite Eb; reflexivity|]. destruct (Z.eqb_spec x id) as [->|]; [rewrite Ea; reflexivity|]. apply (fl_links st F).
  - intros x H. rewrite Oth by (intros ->; apply H; cbn; auto). apply (fl_same st F). intros Hx. apply H. right. now right.
  - intros x Hx. destruct (in_dec Z.eq_dec x (f_done st)) as [Hd|Hd].
    + destruct (fl_pairs st F x Hd) as (a & b & E & Da & Db & X & Y). exists a, b. split; [exact E|]. split; [right; now right|]. split; [right; now right|]. split; [|exact Y].
      apply (exchanged_kept u); [apply Oth; intros ->; contradiction|apply Oth; intros ->; contradiction|exact X].
    + exists id, nb. split; [destruct Hx as [<-|[<-|Hx]]; auto; contradiction|]. split; [now left|]. split; [right; now left|]. split; [exact Ex|exact Fl].
  - intros x y. rewrite <- (fl_net st F). rewrite !net_sum. change (u_ids u') with (u_ids u). apply (isum_upd2 _ id nb).
    + apply (fl_well st F).
    + unfold u. now rewrite (fl_ids st F).
    + unfold u. now rewrite (fl_ids st F).
    + exact N.
    + intros z _ H1 H2. unfold tri_skew. now rewrite !(corner_facet u u' z _ (Oth z H1 H2)).
    + apply (triangle_facet s u) in T0; [|apply (fl_same st F); exact Ni]. apply (triangle_facet s u) in T1; [|apply (fl_same st F); exact Nn].
      fold u. rewrite (tri_skew_is u id x y _ _ _ T0), (tri_skew_is u nb x y _ _ _ T1). set (a := corner s id j) in *. set (b := corner s id (j + 1)) in *. set (c := corner s id (j + 2)) in *. set (d := corner s nb (apart s id j)) in *.
      assert (K1 := skew_swap x y a b). assert (K2 := skew_swap x y c d). destruct Tr as [[A B]|[A B]]; rewrite (tri_skew_is u' _ x y _ _ _ A), (tri_skew_is u' _ x y _ _ _ B); lia.
  - intros Rm x n H. apply (fl_memo st F Rm). intros Hx. apply H. right. now right.
Qed.
Lemma flip_edge_ok st id j : flipping st -> In id (u_ids s) -> In j [0; 1; 2] -> exists st', flip_edge swap tiny id st j = Ok st' /\ flipping st'.
Proof.
  intros F Ii J. unfold flip_edge. cbv zeta. destruct (is_done (f_done st) id) eqn:Di; [exists st; split; [reflexivity|exact F]|]. apply is_done_not in Di.
  assert (W := fl_well st F). rewrite (u_get_stored (f_surf st) id) by (apply well_stored_in; [exact W|now rewrite (fl_ids st F)]). cbn [bind]. rewrite (fl_same st F id Di).
  change (tget (sf_nb (facet s id)) j) with (across s id j). change (tget (sf_vn (facet s id)) j) with (apart s id j).
  destruct (proj2 G id j Ii) as [[F1 F2]|(nb & l & L & O)]; [rewrite F1; exists st; split; [reflexivity|exact F]|].
  destruct L as (L1 & L2 & L3 & L4 & L5 & L6). destruct O as [O1 O2]. rewrite L3. assert (Pn : 0 <= nb) by (apply (proj1 G); exact L1). destruct (Z.eqb_spec nb (-1)); [lia|].
  rewrite (u_get_stored (f_surf st) nb) by (apply well_stored_in; [exact W|now rewrite (fl_ids st F)]). cbn [bind]. destruct (is_done (f_done st) nb) eqn:Dn; [exists st; split; [reflexivity|exact F]|]. apply is_done_not in Dn. rewrite (fl_same st F nb Dn).
  destruct ((apart s id j <? 0) || (2 <? apart s id j)); [exists st; split; [reflexivity|exact F]|].
  set (ni := recall (zlookup id (f_memo st)) (facet s id)). set (nj := recall (zlookup nb (f_memo st)) (facet s nb)).
  assert (F' := flipping_memo st nb F). fold nj in F'. set (st1 := FState (f_surf st) (zinsert nb nj (f_memo st)) (f_done st)) in *.
  assert (E1 : corner s nb (apart s id j + 1) =v= corner s id (j + 1)) by (rewrite (corner_mod s nb (apart s id j + 1) l) by lia; exact O1).
  assert (E2 : corner s nb (apart s id j + 2) =v= corner s id j) by (rewrite (corner_mod s nb (apart s id j + 2) (l + 1)) by lia; exact O2).
  assert (P : flat_if id nb -> exists st', flip_pair id nb (facet s id) (facet s nb) ni nj (swapped j (tget (sf_v (facet s id)) 0) (tget (sf_v (facet s id)) 1) (tget (sf_v (facet s id)) 2) (tget (sf_v (facet s nb)) (apart s id j))) st1 = Ok st' /\ flipping st').
  { intros Fl. unfold flip_pair. cbv zeta. destruct (Rlt_dec _ _) as [Q|]; [|exists st1; split; [reflexivity|exact F']].
    match goal with |- context [Rlt_dec (Rabs ?x) (5 / 2)] => destruct (Rlt_dec (Rabs x) (5 / 2)) end; [|exists st1; split; [reflexivity|exact F']].
    match goal with |- context [Rlt_dec (Rabs ?x) (5 / 2)] => destruct (Rlt_dec (Rabs x) (5 / 2)) end; [|exists st1; split; [reflexivity|exact F']].
    match goal with |- context [Rlt_dec (Rabs ?x) (?y * (1 / 100))] => destruct (Rlt_dec (Rabs x) (y * (1 / 100))) end; [|exists st1; split; [reflexivity|exact F']].
    eexists. split; [reflexivity|]. eapply (put2_ok st1 id nb _ _ j F' Ii L1); [congruence|exact Di|exact Dn|exact J|exact E1|exact E2|reflexivity|reflexivity|exact Q|exact Fl]. }
  assert (Ri : right memo s -> ni = raw_normal (facet s id)) by (intros Rm; now apply (recall_right st)). assert (Rj : right memo s -> nj = raw_normal (facet s nb)) by (intros Rm; now apply (recall_right st)).
  destruct (Rlt_dec (Rabs (normal_angle ni nj)) swap) as [A|A]; [|destruct (Rlt_dec (half_length ni) tiny) as [B|B]; [|exists st1; split; [reflexivity|exact F']]]; apply P; intros Rm; [left|right].
  - rewrite <- (Ri Rm), <- (Rj Rm). eapply Rle_lt_trans; [apply Rle_abs|exact A].
  - now rewrite <- (Ri Rm).
Qed.
Lemma flip_facet_ok st id : flipping st -> In id (u_ids s) -> exists st', flip_facet swap tiny st id = Ok st' /\ flipping st'.
Proof.
  intros F Ii. unfold flip_facet. assert (W := fl_well st F). rewrite (u_get_stored (f_surf st) id) by (apply well_stored_in; [exact W|now rewrite (fl_ids st F)]). cbn [bind].
  destruct (is_done (f_done st) id) eqn:Di; [exists st; split; [reflexivity|exact F]|]. apply is_done_not in Di. rewrite (fl_same st F id Di). assert (F0 := flipping_memo st id F).
  destruct (flip_edge_ok _ id 0 F0 Ii ltac:(cbn; auto)) as (s1 & R1 & F1). destruct (flip_edge_ok s1 id 1 F1 Ii ltac:(cbn; auto)) as (s2 & R2 & F2). destruct (flip_edge_ok s2 id 2 F2 Ii ltac:(cbn; auto)) as (s3 & R3 & F3).
  exists s3. split; [|exact F3]. cbn [foldM]. rewrite R1. cbn [bind]. rewrite R2. cbn [bind]. rewrite R3. reflexivity.
Qed.
Lemma flip_all_ok : exists st, foldM (flip_facet swap tiny) (u_ids s) (FState s memo []) = Ok st /\ flipping st.
Proof.
  assert (X : forall l st, (forall id, In id l -> In id (u_ids s)) -> flipping st -> exists st', foldM (flip_facet swap tiny) l st = Ok st' /\ flipping st').
  { induction l as [|id l IH]; intros st H F; [exists st; split; [reflexivity|exact F]|]. destruct (flip_facet_ok st id F (H id (or_introl eq_refl))) as (s1 & R1 & F1). destruct (IH s1 (fun x Hx => H x (or_intror Hx)) F1) as (s2 & R2 & F2).
    exists s2. split; [|exact F2]. cbn [foldM]. rewrite R1. exact R2. }
  apply X; [auto|exact flipping_start].
Qed.
Lemma exchanged_vertex u p : u_ids u = u_ids s -> (forall id, In id (u_ids s) -> facet u id = facet s id \/ exists a b, (id = a \/ id = b) /\ exchanged s u a b) -> (vertex_of s p <-> vertex_of u p).
Proof.
  intros Iu H. split; intros (id & k & I & E).
  - destruct (H id I) as [Q|(a & b & Q & (N & Ia & Ib & (p0 & p1 & p2 & p3 & T1 & T2 & T3) & _))]; [exists id, k; split; [now rewrite Iu|]; now rewrite (corner_facet s u id k Q)|].
    assert (V : vertex_of u p0 /\ vertex_of u p1 /\ vertex_of u p2 /\ vertex_of u p3). { rewrite <- Iu in Ia, Ib. destruct T3 as [[A B]|[A B]]; apply triangle_vertex in A; try assumption; apply triangle_vertex in B; try assumption; tauto. }
    assert (C : corner s id k =v= p0 \/ corner s id k =v= p1 \/ corner s id k =v= p2 \/ corner s id k =v= p3). { destruct Q as [->| ->]; [assert (X := triangle_corners _ _ _ _ _ T1 k)|assert (X := triangle_corners _ _ _ _ _ T2 k)]; tauto. }
    assert (Y : forall q, corner s id k =v= q -> vertex_of u q -> vertex_of u p). { intros q Eq (i' & k' & I' & E'). exists i', k'. split; [exact I'|]. rewrite E', <- Eq. exact E. }
    destruct V as (V0 & V1 & V2 & V3). destruct C as [C|[C|[C|C]]]; eapply Y; eassumption.
  - rewrite Iu in I. destruct (H id I) as [Q|(a & b & Q & (N & Ia & Ib & (p0 & p1 & p2 & p3 & T1 & T2 & T3) & _))]; [exists id, k; split; [exact I|]; now rewrite <- (corner_facet s u id k Q)|].
    apply triangle_vertex in T1; [|exact Ia]. apply triangle_vertex in T2; [|exact Ib].
    assert (C : corner u id k =v= p0 \/ corner u id k =v= p1 \/ corner u id k =v= p2 \/ corner u id k =v= p3). { destruct T3 as [[A B]|[A B]]; destruct Q as [->| ->]; (assert (X := triangle_corners _ _ _ _ _ A k) + assert (X := triangle_corners _ _ _ _ _ B k)); tauto. }
    assert (Y : forall q, corner u id k =v= q -> vertex_of s q -> vertex_of s p). { intros q Eq (i' & k' & I' & E'). exists i', k'. split; [exact I'|]. rewrite E', <- Eq. exact E. }
    destruct T1 as (V0 & V1 & V2), T2 as (_ & _ & V3). destruct C as [C|[C|[C|C]]]; eapply Y; eassumption.
Qed.
End Flip.

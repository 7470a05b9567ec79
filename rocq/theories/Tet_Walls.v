(** Counting the sides of tetrahedra; volumes from sides. *)
From Coq Require Import ZArith List Bool QArith Lia Lqa.
From Verif Require Import Prelude Vec ZMap Mesh_Model HashGrid_Model Face_Model Query_Model Merge_Model Mesh_Spec Mesh_Proofs Face_Spec Face_Proofs
  Front_Model Front_Spec Front_Proofs Front_Finish Tune_Model Tune_Spec Tune_Proofs Tune_Relax Tet_Model Tet_Spec.
Import ListNotations.
Open Scope Z_scope.

(** ** Sides *)
Lemma same_side_iff x y z a b c : same_side (x, y, z) (a, b, c) = true <->
  (x = a /\ y = b /\ z = c) \/ (y = a /\ z = b /\ x = c) \/ (z = a /\ x = b /\ y = c).
Proof. cbn. rewrite !orb_true_iff, !andb_true_iff, !Z.eqb_eq. tauto. Qed.

Lemma same_side_sym d d' : same_side d d' = same_side d' d.
Proof. destruct d as [[x y] z], d' as [[a b] c]. apply eq_true_iff_eq. rewrite !same_side_iff. intuition congruence. Qed.
Lemma same_side_refl d : same_side d d = true.
Proof. destruct d as [[x y] z]. apply same_side_iff. auto. Qed.
Lemma same_side_trans d1 d2 d3 : same_side d1 d2 = true -> same_side d1 d3 = same_side d2 d3.
Proof.
  destruct d1 as [[x y] z], d2 as [[a b] c], d3 as [[u v] w]. rewrite same_side_iff. intros H. apply eq_true_iff_eq. rewrite !same_side_iff. intuition congruence.
Qed.
Lemma same_side_over d d' : same_side d (turned_over d') = same_side (turned_over d) d'.
Proof. destruct d as [[x y] z], d' as [[a b] c]. apply eq_true_iff_eq. cbn [turned_over]. rewrite !same_side_iff. intuition congruence. Qed.
Lemma turned_over_twice d : turned_over (turned_over d) = d. Proof. now destruct d as [[x y] z]. Qed.

Definition ind4 (d d' : side) : Z := if same_side d d' then 1 else 0.
Lemma ind4_rot x y z d : ind4 (y, z, x) d = ind4 (x, y, z) d.
Proof. unfold ind4. rewrite (same_side_trans (y, z, x) (x, y, z)); [reflexivity|]. apply same_side_iff. auto. Qed.
Lemma ind4_over d d' : ind4 d (turned_over d') = ind4 (turned_over d) d'.
Proof. unfold ind4. now rewrite same_side_over. Qed.
Lemma ind4_pos d d' : 0 <= ind4 d d' <= 1. Proof. unfold ind4. destruct (same_side d d'); lia. Qed.

Lemma facing_cons d l d' : Z.of_nat (facing (d :: l) d') = ind4 d d' + Z.of_nat (facing l d').
Proof. unfold facing, ind4. cbn [filter]. destruct (same_side d d'); cbn [length]; lia. Qed.
Lemma facing_app l l' d : facing (l ++ l') d = (facing l d + facing l' d)%nat.
Proof. unfold facing. now rewrite filter_app, app_length. Qed.
Lemma facing_same l d d' : same_side d d' = true -> facing l d = facing l d'.
Proof.
  intros H. unfold facing. f_equal. apply filter_ext. intros x. rewrite (same_side_sym x), (same_side_sym x). now apply same_side_trans.
Qed.
Lemma facing_in l d : (1 <= facing l d)%nat <-> exists d', In d' l /\ same_side d' d = true.
Proof.
  unfold facing. split.
  - intros H. destruct (filter _ l) as [|x r] eqn:E; [cbn in H; lia|]. exists x. apply (filter_In (fun d' => same_side d' d)). rewrite E. now left.
  - intros (d' & Hd). apply (filter_In (fun d' => same_side d' d)) in Hd. destruct (filter _ l); [destruct Hd|]. cbn. lia.
Qed.
Lemma facing_filter (h : side -> bool) l d : (forall d', same_side d' d = true -> h d' = h d) -> facing (filter h l) d = if h d then facing l d else 0%nat.
Proof.
  intros Hh. unfold facing. induction l as [|x l IH]; [now destruct (h d)|]. cbn [filter]. destruct (same_side x d) eqn:E.
  - rewrite (Hh x E). destruct (h d); cbn [filter]; rewrite ?E; cbn [length]; rewrite ?IH; reflexivity.
  - destruct (h x); cbn [filter]; rewrite ?E; exact IH.
Qed.

(** Sides that run as often in one sense as in the other contribute nothing. *)
Definition over_sides (v : Z -> Z -> Z -> Q) (l : list side) : Q := sum (map (fun d => let '(a, b, c) := d in v a b c) l).
Lemma over_app v l l' : (over_sides v (l ++ l') == over_sides v l + over_sides v l')%Q.
Proof. unfold over_sides. rewrite map_app. apply sum_app. Qed.
Lemma cancel4 (v : Z -> Z -> Z -> Q) : (forall a b c, v a b c == v b c a)%Q -> (forall a b c, v a b c == - v c b a)%Q -> forall n l, (length l <= n)%nat ->
  (forall d, facing l d = facing l (turned_over d)) -> (over_sides v l == 0)%Q.
Proof.
  intros Hr Hv. induction n as [|n IH]; intros l Hl Hb; [destruct l; [reflexivity|cbn in Hl; lia]|].
  destruct l as [|[[x y] z] l]; [reflexivity|]. unfold over_sides. cbn [map sum fold_right]. fold (sum (map (fun d => let '(a, b, c) := d in v a b c) l)). fold (over_sides v l).
  assert (Hsame : forall a b c, same_side (a, b, c) (z, y, x) = true -> (v a b c == v z y x)%Q).
  { intros a b c H. apply same_side_iff in H. destruct H as [(-> & -> & ->)|[(-> & -> & ->)|(-> & -> & ->)]]; [reflexivity|apply Hr|]. rewrite Hr. apply Hr. }
  destruct (same_side (x, y, z) (z, y, x)) eqn:E.
  - assert (v x y z == 0)%Q as ->. { pose proof (Hsame _ _ _ E). pose proof (Hv x y z). lra. }
    rewrite IH; [reflexivity|cbn in Hl; lia|]. intros d. specialize (Hb d). apply (f_equal Z.of_nat) in Hb. rewrite !facing_cons in Hb.
    rewrite ind4_over in Hb. cbn [turned_over] in Hb. unfold ind4 in Hb. rewrite (same_side_trans _ _ d E) in Hb. lia.
  - assert (Hin : (1 <= facing l (z, y, x))%nat).
    { pose proof (Hb (x, y, z)) as H. apply (f_equal Z.of_nat) in H. rewrite !facing_cons in H. cbn [turned_over] in H. unfold ind4 in H.
      rewrite same_side_refl, E in H. lia. }
    apply facing_in in Hin. destruct Hin as ([[a b] c] & Hin & Hs). apply in_split in Hin. destruct Hin as (l1 & l2 & ->).
    assert (C : (over_sides v (l1 ++ l2) == 0)%Q).
    { apply IH; [cbn in Hl; rewrite app_length in *; cbn in Hl; lia|]. intros d. specialize (Hb d). apply (f_equal Z.of_nat) in Hb.
      rewrite !facing_cons, !facing_app, !Nat2Z.inj_add, !facing_cons in Hb. rewrite !facing_app.
      rewrite !ind4_over in Hb. cbn [turned_over] in Hb.
      assert (I1 : ind4 (a, b, c) d = ind4 (z, y, x) d) by (unfold ind4; now rewrite (same_side_trans _ _ d Hs)).
      assert (I2 : ind4 (c, b, a) d = ind4 (x, y, z) d).
      { change (c, b, a) with (turned_over (a, b, c)). rewrite <- ind4_over. unfold ind4. rewrite (same_side_trans _ _ _ Hs). fold (ind4 (z, y, x) (turned_over d)). now rewrite ind4_over. }
      lia. }
    rewrite over_app in C |- *. change (over_sides v ((a, b, c) :: l2)) with (v a b c + over_sides v l2)%Q. pose proof (Hsame _ _ _ Hs). pose proof (Hv x y z). lra.
Qed.

(** ** Volumes *)
Definition spat (t : table coord) (a b c : Z) : Q := triple (where_ t a) (where_ t b) (where_ t c).
Lemma spat_rot t a b c : (spat t a b c == spat t b c a)%Q. Proof. unfold spat, triple, dot, cross. cbn. ring. Qed.
Lemma spat_over t a b c : (spat t a b c == - spat t c b a)%Q. Proof. unfold spat, triple, dot, cross. cbn. ring. Qed.
Lemma volume_six p q r s : (6 * volume p q r s == volume6 p q r s)%Q.
Proof. unfold volume, volume6, triple, dot, cross, vsub. cbn. field. Qed.

Lemma total_volume_walls m : (total_volume6 m == over_sides (spat (m_nodes m)) (all_walls (m_elems m)))%Q.
Proof.
  unfold total_volume6, all_walls. induction (t_ids (m_elems m)) as [|id ids IH]; [reflexivity|]. cbn [flat_map map]. rewrite over_app, <- IH.
  cbn [sum fold_right]. apply Qplus_comp; [|reflexivity]. unfold element_walls. destruct (t_get (m_elems m) id) as [[ty nds fs]| |]; [|reflexivity|reflexivity].
  unfold walls_of. cbn [e_type e_nodes]. destruct ty; try reflexivity. destruct nds as [|p [|q [|r [|s [|]]]]]; try reflexivity.
  unfold over_sides, spat, corner. cbn [map sum fold_right]. unfold volume6, triple, dot, cross, vsub. cbn. ring.
Qed.

Lemma over_turned t l : (over_sides (spat t) (map turned_over l) == - over_sides (spat t) l)%Q.
Proof.
  unfold over_sides. induction l as [|[[a b] c] l IH]; [reflexivity|]. cbn [map sum fold_right turned_over].
  fold (sum (map (fun d => let '(a, b, c) := d in spat t a b c) (map turned_over l))). fold (sum (map (fun d => let '(a, b, c) := d in spat t a b c) l)).
  rewrite IH, (spat_over t c b a). ring.
Qed.
Lemma facing_turned l d : facing (map turned_over l) d = facing l (turned_over d).
Proof. unfold facing. induction l as [|x l IH]; [reflexivity|]. cbn [map filter]. rewrite same_side_over. destruct (same_side (turned_over x) d); cbn [length]; now rewrite IH. Qed.

Lemma volume_net nodes (T T' : table element) :
  (forall d, Z.of_nat (facing (all_walls T') d) - Z.of_nat (facing (all_walls T') (turned_over d)) =
             Z.of_nat (facing (all_walls T) d) - Z.of_nat (facing (all_walls T) (turned_over d))) ->
  forall F F', (total_volume6 (Mesh nodes F' T') == total_volume6 (Mesh nodes F T))%Q.
Proof.
  intros H F F'. rewrite !total_volume_walls. cbn [m_nodes m_elems].
  assert (C : (over_sides (spat nodes) (all_walls T' ++ map turned_over (all_walls T)) == 0)%Q).
  { apply cancel4 with (n := length (all_walls T' ++ map turned_over (all_walls T))); [apply spat_rot|apply spat_over|lia|].
    intros d. rewrite !facing_app, !facing_turned, turned_over_twice. specialize (H d). lia. }
  rewrite over_app, over_turned in C. lra.
Qed.

Lemma volume_moved (T : table element) (t t' : table coord) (keep : Z -> bool) : (forall n, keep n = true -> where_ t' n = where_ t n) ->
  (forall a b c, keep a && keep b && keep c = false -> facing (all_walls T) (a, b, c) = facing (all_walls T) (c, b, a)) ->
  forall F F', (total_volume6 (Mesh t' F' T) == total_volume6 (Mesh t F T))%Q.
Proof.
  intros Hk H F F'. rewrite !total_volume_walls. cbn [m_nodes m_elems].
  set (v := fun a b c => (spat t' a b c - spat t a b c)%Q).
  set (h := fun d : side => let '(a, b, c) := d in negb (keep a && keep b && keep c)%bool).
  assert (Hh : forall d d', same_side d' d = true -> h d' = h d).
  { intros [[a b] c] [[x y] z] Hs. apply same_side_iff in Hs. unfold h. f_equal.
    destruct Hs as [(-> & -> & ->)|[(-> & -> & ->)|(-> & -> & ->)]]; destruct (keep a), (keep b), (keep c); reflexivity. }
  assert (C : (over_sides v (filter h (all_walls T)) == 0)%Q).
  { apply cancel4 with (n := length (filter h (all_walls T))).
    - intros a b c. unfold v. rewrite (spat_rot t'), (spat_rot t). reflexivity.
    - intros a b c. unfold v. rewrite (spat_over t'), (spat_over t). ring.
    - lia.
    - intros [[a b] c]. rewrite !facing_filter by (intros; now apply Hh). cbn [turned_over]. unfold h.
      replace (keep c && keep b && keep a)%bool with (keep a && keep b && keep c)%bool by (destruct (keep a), (keep b), (keep c); reflexivity).
      destruct (keep a && keep b && keep c)%bool eqn:E; cbn [negb]; [reflexivity|]. now apply H. }
  assert (G : forall l, (over_sides (spat t') l == over_sides (spat t) l + over_sides v (filter h l))%Q).
  { clear C. induction l as [|[[a b] c] l IH]; [reflexivity|]. unfold over_sides in *. cbn [filter map sum fold_right].
    fold (sum (map (fun d => let '(a, b, c) := d in spat t' a b c) l)). fold (sum (map (fun d => let '(a, b, c) := d in spat t a b c) l)).
    destruct (h (a, b, c)) eqn:E; cbn [map sum fold_right]; fold (sum (map (fun d => let '(a, b, c) := d in v a b c) (filter h l))).
    - unfold v at 1. lra.
    - unfold h in E. apply negb_false_iff in E. apply andb_true_iff in E. destruct E as [E K3]. apply andb_true_iff in E. destruct E as [K1 K2].
      unfold spat at 1 3. rewrite (Hk _ K1), (Hk _ K2), (Hk _ K3). lra. }
  rewrite G. lra.
Qed.

(** ** The walls of one tetrahedron *)
Lemma facing_walls ty p q r s fs d : ty = ET_TETRAHEDRON -> Z.of_nat (facing (walls_of (Element ty [p; q; r; s] fs)) d) =
  ind4 (p, q, r) d + ind4 (q, s, r) d + ind4 (p, s, q) d + ind4 (p, r, s) d.
Proof. intros ->. cbn [walls_of e_type e_nodes]. rewrite !facing_cons. change (Z.of_nat (facing [] d)) with 0. lia. Qed.

(** The nodes of a tetrahedron, in an order with the same sense. *)
Definition even4 (l : list Z) (a b c d : Z) : Prop :=
  In l [[a; b; c; d]; [b; c; a; d]; [c; a; b; d]; [d; a; c; b]; [d; b; a; c]; [d; c; b; a];
        [a; c; d; b]; [b; a; d; c]; [c; b; d; a]; [a; d; b; c]; [b; d; c; a]; [c; d; a; b]].
Ltac even_cases H := cbn [In] in H; repeat match type of H with _ \/ _ => destruct H as [H|H] | False => destruct H end.

Lemma find_fourth (l : list Z) a b c n : find (fun n => negb (n =? a) && negb (n =? b) && negb (n =? c)) l = Some n -> In n l /\ n <> a /\ n <> b /\ n <> c.
Proof.
  intros H. apply find_some in H. destruct H as [Hi H]. split; [exact Hi|]. rewrite !andb_true_iff, !negb_true_iff, !Z.eqb_neq in H. tauto.
Qed.

Lemma fourth_corner e p q r s a b c n : e_type e = ET_TETRAHEDRON -> e_nodes e = [p; q; r; s] -> NoDup [p; q; r; s] -> (1 <= facing (walls_of e) (a, b, c))%nat ->
  fourth e a b c = Some n -> even4 (e_nodes e) a b c n /\ NoDup [a; b; c; n].
Proof.
  intros Ht En Hnd Hf Hn. unfold fourth in Hn. apply find_fourth in Hn. rewrite En in *. unfold walls_of in Hf. rewrite Ht, En in Hf.
  apply facing_in in Hf. destruct Hf as ([[x y] z] & Hin & Hs). apply same_side_iff in Hs. destruct Hn as (Hi & N1 & N2 & N3).
  repeat (apply NoDup_cons_iff in Hnd; destruct Hnd as [?Hx Hnd]). cbn [In] in *.
  assert (Hd : p <> q /\ p <> r /\ p <> s /\ q <> r /\ q <> s /\ r <> s) by (repeat split; intros E; subst; tauto).
  clear Hx Hx0 Hx1 Hx2. destruct Hd as (D1 & D2 & D3 & D4 & D5 & D6).
  split.
  - unfold even4. cbn [In]. destruct Hin as [H|[H|[H|[H|[]]]]]; injection H as <- <- <-; destruct Hs as [(<- & <- & <-)|[(<- & <- & <-)|(<- & <- & <-)]];
      (destruct Hi as [Hi|[Hi|[Hi|[Hi|[]]]]]; subst; try congruence; tauto).
  - assert (a <> b /\ a <> c /\ b <> c) as (E1 & E2 & E3).
    { destruct Hin as [H|[H|[H|[H|[]]]]]; injection H as <- <- <-; destruct Hs as [(<- & <- & <-)|[(<- & <- & <-)|(<- & <- & <-)]]; auto. }
    repeat constructor; cbn [In]; intuition congruence.
Qed.

Lemma even4_facing e a b c d x : e_type e = ET_TETRAHEDRON -> even4 (e_nodes e) a b c d ->
  Z.of_nat (facing (walls_of e) x) = ind4 (a, b, c) x + ind4 (b, d, c) x + ind4 (a, d, b) x + ind4 (a, c, d) x.
Proof.
  intros Ht H. destruct e as [ty nd fs]. cbn [e_type e_nodes] in *. unfold even4 in H.
  pose proof (ind4_rot a b c x) as A1. pose proof (ind4_rot b c a x) as A2.
  pose proof (ind4_rot b d c x) as B1. pose proof (ind4_rot d c b x) as B2.
  pose proof (ind4_rot a d b x) as C1. pose proof (ind4_rot d b a x) as C2.
  pose proof (ind4_rot a c d x) as D1. pose proof (ind4_rot c d a x) as D2.
  even_cases H; subst nd; rewrite (facing_walls _ _ _ _ _ fs x Ht); lia.
Qed.

Lemma even4_in l a b c d : even4 l a b c d -> forall n, In n [a; b; c; d] <-> In n l.
Proof. intros H n. unfold even4 in H. even_cases H; subst l; cbn [In]; tauto. Qed.
Lemma even4_shape l a b c d : even4 l a b c d -> exists p q r s, l = [p; q; r; s].
Proof. intros H. unfold even4 in H. even_cases H; subst l; eauto. Qed.

(** A quality that does not depend on the order of the corners, as long as their sense is the same. *)
Definition even_quality (quality : coord -> coord -> coord -> coord -> Q) : Prop :=
  forall p q r s, (quality p q r s == quality q r p s /\ quality p q r s == quality q s r p)%Q.
Lemma even4_quality quality l a b c d p q r s (pos : Z -> coord) : even_quality quality -> l = [p; q; r; s] -> even4 l a b c d ->
  (quality (pos p) (pos q) (pos r) (pos s) == quality (pos a) (pos b) (pos c) (pos d))%Q.
Proof.
  intros Hq El H. set (F := fun a b c d => quality (pos a) (pos b) (pos c) (pos d)).
  assert (R1 : forall a b c d, (F a b c d == F b c a d)%Q) by (intros; apply Hq). assert (R2 : forall a b c d, (F a b c d == F b d c a)%Q) by (intros; apply Hq).
  assert (R3 : forall a b c d, (F a b c d == F c a b d)%Q) by (intros; now rewrite (R1 c0 a0 b0 d0)).
  change (F p q r s == F a b c d)%Q. unfold even4 in H.
  even_cases H; rewrite El in H; injection H as <- <- <- <-; try reflexivity; try (now rewrite R1); try (now rewrite R3);
    try (now rewrite R2); try (now rewrite R1, R2); try (now rewrite R3, R2); try (now rewrite R2, R1); try (now rewrite R2, R3);
    try (now rewrite R1, R2, R1); try (now rewrite R1, R2, R3); try (now rewrite R3, R2, R1); try (now rewrite R3, R2, R3).
Qed.

Lemma volume_even p q r s : (volume6 p q r s == volume6 q r p s /\ volume6 p q r s == volume6 q s r p)%Q.
Proof. unfold volume6, dot, cross, vsub. cbn. split; ring. Qed.

(** ** Tables *)
Lemma facing_set (T : table element) id e0 e d : NoDup (t_ids T) -> In id (t_ids T) -> t_get T id = Ok e0 ->
  (facing (all_walls (t_set T id e)) d + facing (walls_of e0) d = facing (all_walls T) d + facing (walls_of e) d)%nat.
Proof.
  intros Hnd Hin He0. unfold all_walls. cbn [t_set t_ids].
  assert (Hg : forall k, element_walls (t_set T id e) k = if k =? id then walls_of e else element_walls T k).
  { intros k. unfold element_walls, t_get, zat, t_set. cbn. rewrite zlookup_insert. now destruct (k =? id). }
  assert (Hno : forall l, ~ In id l -> flat_map (element_walls (t_set T id e)) l = flat_map (element_walls T) l).
  { intros l Hl. apply flat_map_same. intros k Hk. rewrite Hg. destruct (Z.eqb_spec k id); [congruence|reflexivity]. }
  induction (t_ids T) as [|k l IH]; [destruct Hin|]. cbn [flat_map]. rewrite !facing_app. apply NoDup_cons_iff in Hnd. destruct Hnd as [Hk Hnd].
  destruct (Z.eq_dec k id) as [->|Hne].
  - rewrite (Hno l Hk). rewrite Hg, Z.eqb_refl. assert (E : element_walls T id = walls_of e0) by (unfold element_walls; now rewrite He0).
    rewrite E. lia.
  - destruct Hin as [->|Hin]; [contradiction|]. rewrite Hg. destruct (Z.eqb_spec k id); [contradiction|]. specialize (IH Hnd Hin). lia.
Qed.

Lemma facing_add (T : table element) id e d : ~ In id (t_ids T) -> facing (all_walls (t_add T id e)) d = (facing (all_walls T) d + facing (walls_of e) d)%nat.
Proof.
  intros Hni. unfold all_walls, t_add. cbn [t_ids]. rewrite flat_map_app, facing_app. cbn [flat_map]. rewrite app_nil_r.
  assert (Hg : forall k, element_walls (Table (t_ids T ++ [id]) (zinsert id e (t_map T)) (zinsert id (t_ctr T) (t_idx T)) (t_ctr T + 1)) k = if k =? id then walls_of e else element_walls T k).
  { intros k. unfold element_walls, t_get, zat. cbn. rewrite zlookup_insert. now destruct (k =? id). }
  rewrite Hg, Z.eqb_refl. f_equal. f_equal. apply flat_map_same. intros k Hk. rewrite Hg. destruct (Z.eqb_spec k id); [congruence|reflexivity].
Qed.

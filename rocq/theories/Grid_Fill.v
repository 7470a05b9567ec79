(** Proofs that structured meshes fill their domain (continues Grid_Mesh). *)
From Coq Require Import ZArith List Bool Lia QArith Qabs Qround Lqa Qfield Permutation.
From Verif Require Import Prelude Vec ZMap Mesh_Model Mesh_Spec Mesh_Proofs HashGrid_Model HashGrid_Spec
  HashGrid_Proofs Mesh_Check Merge_Model Merge_Spec Merge_Proofs Face_Model Face_Spec Face_Proofs Grid_Model Grid_Spec
  Grid_Proofs Grid_Mesh.
Import ListNotations.
Open Scope Z_scope.

Definition wsum (ws : list Q) (cs : list coord) : coord := vsum (map (fun wc => vscale (fst wc) (snd wc)) (combine ws cs)).

Lemma wsum_veq ws cs ds : Forall2 veq cs ds -> wsum ws cs =v= wsum ws ds.
Proof.
  unfold wsum. intros H. revert ws. induction H as [|c d cs ds E H IH]; intros [|x ws]; cbn [combine map vsum fold_right]; try reflexivity.
  apply vadd_Proper; [|apply IH]. cbn [fst snd]. now rewrite E.
Qed.

Lemma in_hull_veq cs ds p q : Forall2 veq cs ds -> p =v= q -> in_hull cs p -> in_hull ds q.
Proof.
  intros H E (ws & L & P & S & V). exists ws. split; [rewrite L; clear - H; induction H; cbn; congruence|].
  split; [exact P|]. split; [exact S|]. rewrite <- E, V. now apply wsum_veq.
Qed.

Definition unit01 (x : Q) : Prop := (0 <= x)%Q /\ (x <= 1)%Q.

Lemma hull_in_box o u v w cs p :
  Forall (fun q => exists a b c, unit01 a /\ unit01 b /\ unit01 c /\ q =v= at_fractions o u v w a b c) cs ->
  in_hull cs p -> exists a b c, unit01 a /\ unit01 b /\ unit01 c /\ p =v= at_fractions o u v w a b c.
Proof.
  intros H (ws & L & P & S & V).
  assert (X : exists a b c, (0 <= a <= qsum ws)%Q /\ (0 <= b <= qsum ws)%Q /\ (0 <= c <= qsum ws)%Q /\
    wsum ws cs =v= vadd (vscale (qsum ws) o) (vadd (vscale a u) (vadd (vscale b v) (vscale c w)))).
  { clear S V. revert ws L P. induction H as [|q cs (a & b & c & [A1 A2] & [B1 B2] & [C1 C2] & E) H IH]; intros [|x ws] L P; try discriminate.
    - exists 0%Q, 0%Q, 0%Q. cbn. unfold veq, vadd, vscale; cbn [cx cy cz]. repeat split; lra.
    - destruct (IH ws) as (a' & b' & c' & Ha & Hb & Hc & E'). { now injection L. } { intros; apply P; now right. }
      assert (0 <= x)%Q by (apply P; now left).
      exists (x * a + a')%Q, (x * b + b')%Q, (x * c + c')%Q. cbn [qsum fold_right]. fold (qsum ws).
      split; [nra|]. split; [nra|]. split; [nra|].
      unfold wsum; cbn [combine map vsum fold_right fst snd]. fold (vsum (map (fun wc => vscale (fst wc) (snd wc)) (combine ws cs))).
      fold (wsum ws cs). rewrite E', E. unfold at_fractions, veq, vadd, vscale; cbn [cx cy cz]. repeat split; ring. }
  destruct X as (a & b & c & Ha & Hb & Hc & E). exists a, b, c. unfold unit01.
  split; [lra|]. split; [lra|]. split; [lra|]. rewrite V. fold (wsum ws cs). rewrite E.
  unfold at_fractions, veq, vadd, vscale; cbn [cx cy cz]. rewrite S. repeat split; ring.
Qed.

Ltac hull_tac := unfold wsum, at_fractions; cbn [combine map vsum fold_right fst snd qsum]; unfold veq, vadd, vscale, vzero; cbn [cx cy cz]; repeat split; ring.

Lemma corners_hull o u v w p :
  in_hull (corners o u v w) p <-> exists a b c, unit01 a /\ unit01 b /\ unit01 c /\ p =v= at_fractions o u v w a b c.
Proof.
  split.
  - apply hull_in_box. unfold unit01. repeat constructor.
    + exists 0%Q, 0%Q, 0%Q. repeat split; try lra; unfold at_fractions, veq, vadd, vscale; cbn [cx cy cz]; ring.
    + exists 1%Q, 0%Q, 0%Q. repeat split; try lra; unfold at_fractions, veq, vadd, vscale; cbn [cx cy cz]; ring.
    + exists 1%Q, 1%Q, 0%Q. repeat split; try lra; unfold at_fractions, veq, vadd, vscale; cbn [cx cy cz]; ring.
    + exists 0%Q, 1%Q, 0%Q. repeat split; try lra; unfold at_fractions, veq, vadd, vscale; cbn [cx cy cz]; ring.
    + exists 0%Q, 0%Q, 1%Q. repeat split; try lra; unfold at_fractions, veq, vadd, vscale; cbn [cx cy cz]; ring.
    + exists 1%Q, 0%Q, 1%Q. repeat split; try lra; unfold at_fractions, veq, vadd, vscale; cbn [cx cy cz]; ring.
    + exists 1%Q, 1%Q, 1%Q. repeat split; try lra; unfold at_fractions, veq, vadd, vscale; cbn [cx cy cz]; ring.
    + exists 0%Q, 1%Q, 1%Q. repeat split; try lra; unfold at_fractions, veq, vadd, vscale; cbn [cx cy cz]; ring.
  - intros (a & b & c & [A1 A2] & [B1 B2] & [C1 C2] & E).
    exists [(1-a)*((1-b)*(1-c)); a*((1-b)*(1-c)); a*(b*(1-c)); (1-a)*(b*(1-c));
            (1-a)*((1-b)*c); a*((1-b)*c); a*(b*c); (1-a)*(b*c)]%Q.
    split; [reflexivity|]. split.
    + assert (0 <= 1 - a)%Q by lra. assert (0 <= 1 - b)%Q by lra. assert (0 <= 1 - c)%Q by lra.
      intros x Hx; cbn in Hx; repeat destruct Hx as [<-|Hx]; try contradiction;
      repeat apply Qmult_le_0_compat; assumption.
    + split; [cbn; ring|]. rewrite E. unfold corners. hull_tac.
Qed.

(** The corners of one of the six tetrahedra. *)
Definition tet_corners (o u v w : coord) (p : list nat) : list coord := map (fun q => nth q (corners o u v w) vzero) p.

Lemma tets_cover o u v w a b c : unit01 a -> unit01 b -> unit01 c ->
  exists p, In p six_tets /\ in_hull (tet_corners o u v w p) (at_fractions o u v w a b c).
Proof.
  intros [A1 A2] [B1 B2] [C1 C2].
  assert (X : forall p w0 w1 w2 w3, (0 <= w0 -> 0 <= w1 -> 0 <= w2 -> 0 <= w3 -> w0 + w1 + w2 + w3 == 1 ->
    In p six_tets -> length p = 4%nat ->
    at_fractions o u v w a b c =v= wsum [w0; w1; w2; w3] (tet_corners o u v w p) ->
    exists p, In p six_tets /\ in_hull (tet_corners o u v w p) (at_fractions o u v w a b c))%Q).
  { intros p w0 w1 w2 w3 H0 H1 H2 H3 S Hp Hl E. exists p. split; [exact Hp|]. exists [w0; w1; w2; w3].
    split; [unfold tet_corners; now rewrite map_length|]. split; [intros x Hx; cbn in Hx; repeat destruct Hx as [<-|Hx]; tauto|].
    split; [|exact E]. cbn. rewrite <- S. ring. }
  destruct (Qlt_le_dec b c) as [H|H].
  - destruct (Qlt_le_dec 1 (a + c)) as [H1|H1]; [destruct (Qlt_le_dec 1 (a + b)) as [H2|H2]|].
    + apply (X [6; 1; 5; 7]%nat (a + b - 1) (1 - c) (c - b) (1 - a))%Q; try lra; try reflexivity; [cbn; tauto|].
      unfold tet_corners, corners; cbn [map nth]. hull_tac.
    + apply (X [5; 1; 4; 7]%nat (a + c - 1) (1 - c) (1 - a - b) b)%Q; try lra; try reflexivity; [cbn; tauto|].
      unfold tet_corners, corners; cbn [map nth]. hull_tac.
    + apply (X [1; 0; 4; 7]%nat a (1 - a - c) (c - b) b)%Q; try lra; try reflexivity; [cbn; tauto|].
      unfold tet_corners, corners; cbn [map nth]. hull_tac.
  - destruct (Qlt_le_dec 1 (a + b)) as [H1|H1]; [destruct (Qlt_le_dec 1 (a + c)) as [H2|H2]|].
    + apply (X [2; 1; 6; 7]%nat (b - c) (1 - b) (a + c - 1) (1 - a))%Q; try lra; try reflexivity; [cbn; tauto|].
      unfold tet_corners, corners; cbn [map nth]. hull_tac.
    + apply (X [3; 1; 2; 7]%nat (1 - a - c) (1 - b) (a + b - 1) c)%Q; try lra; try reflexivity; [cbn; tauto|].
      unfold tet_corners, corners; cbn [map nth]. hull_tac.
    + apply (X [3; 0; 1; 7]%nat (b - c) (1 - a - b) a c)%Q; try lra; try reflexivity; [cbn; tauto|].
      unfold tet_corners, corners; cbn [map nth]. hull_tac.
Qed.

(** The grid interval containing a fraction. *)
Lemma interval n a : 1 <= n -> unit01 a -> exists i, 0 <= i < n /\ exists x, unit01 x /\ (a == frac i n + frac 1 n * x)%Q.
Proof.
  intros Hn [A1 A2]. set (y := (a * inject_Z n)%Q). set (f := Qfloor y).
  assert (Np : (0 < inject_Z n)%Q) by (unfold Qlt; cbn; lia).
  assert (F1 : (inject_Z f <= y)%Q) by apply Qfloor_le. assert (F2 : (y < inject_Z (f + 1))%Q) by apply Qlt_floor.
  rewrite inject_Z_plus in F2.
  assert (Y0 : (0 <= y)%Q) by (unfold y; nra). assert (Y1 : (y <= inject_Z n)%Q) by (unfold y; nra).
  assert (f0 : 0 <= f). { assert (inject_Z 0 < inject_Z (f + 1))%Q as H by (rewrite inject_Z_plus; change (inject_Z 0) with 0%Q; lra). rewrite <- Zlt_Qlt in H. lia. }
  assert (f1 : f <= n). { assert (inject_Z f <= inject_Z n)%Q as H by lra. rewrite <- Zle_Qle in H. exact H. }
  assert (HY : (a == y / inject_Z n)%Q) by (unfold y; field; lra).
  assert (X : forall i, 0 <= i < n -> (0 <= y - inject_Z i <= 1)%Q ->
    exists i, 0 <= i < n /\ exists x, unit01 x /\ (a == frac i n + frac 1 n * x)%Q).
  { intros i Hi Hx. exists i. split; [exact Hi|]. exists (y - inject_Z i)%Q. split; [exact Hx|].
    rewrite HY. unfold frac. field. lra. }
  destruct (Z.eq_dec f n) as [E|E].
  - apply (X (n - 1)); [lia|]. assert (H : (inject_Z (n - 1) == inject_Z n - 1)%Q).
    { unfold Zminus. rewrite inject_Z_plus. change (inject_Z (- (1))) with (-1)%Q. ring. }
    rewrite H. rewrite E in F1. lra.
  - apply (X f); [lia|]. change (inject_Z 1) with 1%Q in F2. lra.
Qed.

Lemma frac_range i n : 1 <= n -> 0 <= i <= n -> unit01 (frac i n).
Proof.
  intros Hn Hi. pose proof (frac_one_pos n Hn). pose proof (frac_full n Hn) as F. rewrite frac_scale in F.
  unfold unit01. rewrite frac_scale.
  assert (0 <= inject_Z i)%Q by (change 0%Q with (inject_Z 0); rewrite <- Zle_Qle; lia).
  assert (inject_Z i <= inject_Z n)%Q by (rewrite <- Zle_Qle; lia). nra.
Qed.

Lemma hex_vol_veq l l' : Forall2 veq l l' -> (geo_hex_volume l == geo_hex_volume l')%Q.
Proof.
  intros H. inversion H as [|? ? ? ? E0 H0]; subst; [reflexivity|]. inversion H0 as [|? ? ? ? E1 H1]; subst; [reflexivity|].
  inversion H1 as [|? ? ? ? E2 H2]; subst; [reflexivity|]. inversion H2 as [|? ? ? ? E3 H3]; subst; [reflexivity|].
  inversion H3 as [|? ? ? ? E4 H4]; subst; [reflexivity|]. cbn [geo_hex_volume]. now rewrite E0, E1, E3, E4.
Qed.

Lemma tet_vol_veq l l' : Forall2 veq l l' -> (geo_tet_volume l == geo_tet_volume l')%Q.
Proof.
  intros H. inversion H as [|? ? ? ? E0 H0]; subst; [reflexivity|]. inversion H0 as [|? ? ? ? E1 H1]; subst; [reflexivity|].
  inversion H1 as [|? ? ? ? E2 H2]; subst; [reflexivity|]. inversion H2 as [|? ? ? ? E3 H3]; subst; [reflexivity|].
  cbn [geo_tet_volume]. unfold det3. now rewrite E0, E1, E2, E3.
Qed.

Lemma corners_volume o u v w : (geo_hex_volume (corners o u v w) == dot w (cross v u))%Q.
Proof. unfold corners, geo_hex_volume, dot, cross, vsub, vadd; cbn [cx cy cz]. ring. Qed.

Lemma tet_volume_corner o u v w p : In p six_tets ->
  (geo_tet_volume (tet_corners o u v w p) == dot w (cross v u) / 6)%Q.
Proof.
  intros Hp. cbn in Hp; repeat destruct Hp as [<-|Hp]; try contradiction;
  unfold tet_corners, corners; cbn [map nth]; unfold geo_tet_volume, det3, dot, cross, vadd; cbn [cx cy cz]; field.
Qed.


Lemma Forall2_veq_sym l l' : Forall2 veq l l' -> Forall2 veq l' l.
Proof. induction 1; constructor; [now symmetry|assumption]. Qed.
Lemma Forall2_veq_trans l l' l'' : Forall2 veq l l' -> Forall2 veq l' l'' -> Forall2 veq l l''.
Proof. intros H. revert l''. induction H; intros l'' H'; inversion H'; subst; constructor; [etransitivity; eassumption|auto]. Qed.
Lemma Forall2_map_veq {A} (f g : A -> coord) l : (forall x, In x l -> f x =v= g x) -> Forall2 veq (map f l) (map g l).
Proof. induction l as [|x l IH]; intros H; cbn; constructor; [apply H; now left|]. apply IH. intros; apply H; now right. Qed.

Lemma qsum_const {A} (f : A -> Q) l c : (forall a, In a l -> f a == c)%Q -> (qsum (map f l) == inject_Z (zlen l) * c)%Q.
Proof.
  unfold zlen. induction l as [|a l IH]; intros H; [cbn; ring|]. cbn [map qsum fold_right length]. fold (qsum (map f l)).
  rewrite H by now left. rewrite IH by (intros; apply H; now right). rewrite Nat2Z.inj_succ. unfold Z.succ.
  rewrite inject_Z_plus. change (inject_Z 1) with 1%Q. ring.
Qed.

(** Cells of a hexahedral grid, whole or split. *)
Lemma hex_cell_corners pos o u v w nu nv nw d m id e : 1 <= nu -> 1 <= nv -> 1 <= nw ->
  (forall c, pos c =v= hex_pos o u v w nu nv nw c) ->
  gm unit_dirs (hex_pat d) pos nu nv nw (nu + 1) (nv + 1) (nw + 1) m ->
  t_get (m_elems m) id = Ok e ->
  exists c, inbox nu nv nw c /\
    let o' := hex_pos o u v w nu nv nw c in
    if d then exists p, In p six_tets /\ Forall2 veq (elem_coords m id) (tet_corners o' (edge u nu) (edge v nv) (edge w nw) p)
    else Forall2 veq (elem_coords m id) (corners o' (edge u nu) (edge v nv) (edge w nw)).
Proof.
  intros Hu Hv Hw Hpos G He. destruct (gm_elem _ _ _ _ _ _ _ _ _ _ G _ _ He) as (c & p & Hc & Hp & ->). exists c. split; [exact Hc|].
  pose proof (gm_coords _ _ _ _ _ _ _ _ _ _ G id c p He Hc Hp) as Ec.
  assert (X : Forall2 veq (map (fun x => hex_pos o u v w nu nv nw (oadd c x)) hex_offs)
    (corners (hex_pos o u v w nu nv nw c) (edge u nu) (edge v nv) (edge w nw))).
  { eapply Forall2_veq_trans; [|apply corners_cell]. apply Forall2_map_veq. intros x _. now apply hex_pos_cell. }
  cbn zeta. destruct d.
  - cbn [hex_pat] in Hp. apply in_map_iff in Hp. destruct Hp as (q & <- & Hq). exists q. split; [exact Hq|]. rewrite Ec. cbn [snd].
    unfold tet_corners. rewrite map_map. apply Forall2_map_veq. intros k Hk. rewrite Hpos.
    assert (Hk8 : (k < 8)%nat) by (cbn in Hq; repeat destruct Hq as [<-|Hq]; try contradiction; cbn in Hk; lia).
    assert (Y : forall l l' : list coord, Forall2 veq l l' -> forall j dd, nth j l dd =v= nth j l' dd).
    { clear. induction 1 as [|a b l l' E H IH]; intros [|j] dd; cbn [nth]; try reflexivity; auto. }
    rewrite <- (Y _ _ X). rewrite (nth_indep _ vzero (hex_pos o u v w nu nv nw (oadd c (0,0,0)))) by exact Hk8.
    rewrite (map_nth (fun x => hex_pos o u v w nu nv nw (oadd c x))). reflexivity.
  - destruct Hp as [<-|[]]. rewrite Ec. eapply Forall2_veq_trans; [|exact X]. apply Forall2_map_veq. intros x _. apply Hpos.
Qed.

Lemma hex_pos_in o u v w nu nv nw c : 1 <= nu -> 1 <= nv -> 1 <= nw -> inbox (nu + 1) (nv + 1) (nw + 1) c ->
  exists a b c', unit01 a /\ unit01 b /\ unit01 c' /\ hex_pos o u v w nu nv nw c =v= at_fractions o u v w a b c'.
Proof.
  intros Hu Hv Hw Hc. exists (frac (ox c) nu), (frac (oy c) nv), (frac (oz c) nw). unfold inbox in Hc.
  split; [apply frac_range; lia|]. split; [apply frac_range; lia|]. split; [apply frac_range; lia|]. now apply hex_pos_eq.
Qed.

Lemma hex_fill pos o u v w nu nv nw d m : 1 <= nu -> 1 <= nv -> 1 <= nw ->
  (forall c, pos c =v= hex_pos o u v w nu nv nw c) ->
  gm unit_dirs (hex_pat d) pos nu nv nw (nu + 1) (nv + 1) (nw + 1) m ->
  (forall id, In id (t_ids (m_elems m)) ->
     (vol d (elem_coords m id) == geo_hex_volume (corners o u v w) / inject_Z ((if d then 6 else 1) * (nu * nv * nw)))%Q) /\
  (qsum (map (fun id => vol d (elem_coords m id)) (t_ids (m_elems m))) == geo_hex_volume (corners o u v w))%Q /\
  (forall p, in_hull (corners o u v w) p <-> exists id, In id (t_ids (m_elems m)) /\ in_hull (elem_coords m id) p).
Proof.
  intros Hu Hv Hw Hpos G. pose proof (gm_wf _ _ _ _ _ _ _ _ _ _ G) as W.
  assert (N0 : forall n, 1 <= n -> ~ (inject_Z n == 0)%Q) by (intros n H E; unfold Qeq in E; cbn in E; lia).
  assert (V : forall id, In id (t_ids (m_elems m)) ->
     (vol d (elem_coords m id) == geo_hex_volume (corners o u v w) / inject_Z ((if d then 6 else 1) * (nu * nv * nw)))%Q).
  { intros id Hid. destruct (wf_get _ _ (proj2 (proj2 W)) Hid) as (e & He).
    destruct (hex_cell_corners pos o u v w nu nv nw d m id e Hu Hv Hw Hpos G He) as (c & Hc & X). cbn zeta in X.
    rewrite !inject_Z_mult. pose proof (N0 _ Hu). pose proof (N0 _ Hv). pose proof (N0 _ Hw). unfold vol. destruct d.
    - destruct X as (p & Hp & X). rewrite (tet_vol_veq _ _ X), tet_volume_corner, corners_volume by assumption.
      unfold edge, frac, dot, cross, vscale; cbn [cx cy cz]. change (inject_Z 6) with 6%Q. change (inject_Z 1) with 1%Q. field. auto.
    - rewrite (hex_vol_veq _ _ X), !corners_volume.
      unfold edge, frac, dot, cross, vscale; cbn [cx cy cz]. change (inject_Z 1) with 1%Q. field. auto. }
  split; [exact V|]. split.
  { rewrite (qsum_const _ _ _ V). rewrite (gm_elem_ids _ _ _ _ _ _ _ _ _ _ G) by lia. rewrite zlen_hex_pat.
    unfold zlen. rewrite zrange_length.
    assert (1 <= nu * nv * nw) by (assert (1 <= nu * nv) by nia; nia).
    rewrite Z2Nat.id by (destruct d; nia). field. apply N0. destruct d; nia. }
  intros p. split.
  - intros Hp. apply corners_hull in Hp. destruct Hp as (a & b & c & Ha & Hb & Hc & E).
    destruct (interval nu a Hu Ha) as (i & Hi & x & Hx & Ea). destruct (interval nv b Hv Hb) as (j & Hj & y & Hy & Eb).
    destruct (interval nw c Hw Hc) as (k & Hk & z & Hz & Ec).
    set (cc := (i, j, k) : off). assert (Icc : inbox nu nv nw cc) by (unfold inbox, cc; cbn [ox oy oz fst snd]; auto).
    assert (Ep : p =v= at_fractions (hex_pos o u v w nu nv nw cc) (edge u nu) (edge v nv) (edge w nw) x y z).
    { rewrite E. unfold at_fractions at 2. rewrite hex_pos_eq by assumption. unfold cc, edge, at_fractions; cbn [ox oy oz fst snd].
      unfold veq, vadd, vscale; cbn [cx cy cz]. rewrite Ea, Eb, Ec. repeat split; ring. }
    destruct d.
    + destruct (tets_cover (hex_pos o u v w nu nv nw cc) (edge u nu) (edge v nv) (edge w nw) x y z Hx Hy Hz) as (q & Hq & Hh).
      set (pp := (ET_TETRAHEDRON, map (fun q => nth q hex_offs (0,0,0)) q)).
      assert (Hpp : In pp (hex_pat true)) by (apply in_map_iff; exists q; auto).
      destruct (gm_stamp _ _ _ _ _ _ _ _ _ _ G cc pp Icc Hpp) as (id & Hid & He). exists id. split; [exact Hid|].
      rewrite (gm_coords _ _ _ _ _ _ _ _ _ _ G id cc pp He Icc Hpp). eapply in_hull_veq; [|symmetry; exact Ep|exact Hh].
      apply Forall2_veq_sym. unfold pp, tet_corners; cbn [snd]. rewrite map_map. apply Forall2_map_veq. intros r Hr.
      assert (Hr8 : (r < 8)%nat) by (cbn in Hq; repeat destruct Hq as [<-|Hq]; try contradiction; cbn in Hr; lia).
      rewrite Hpos, hex_pos_cell by assumption.
      generalize (hex_pos o u v w nu nv nw cc) (edge u nu) (edge v nv) (edge w nw). intros O U V0 W0.
      do 8 (destruct r as [|r]; [cbn [nth hex_offs corners ox oy oz fst snd]; unfold at_fractions, veq, vadd, vscale; cbn [cx cy cz];
        change (inject_Z 0) with 0%Q; change (inject_Z 1) with 1%Q; repeat split; ring|]). lia.
    + set (pp := (ET_HEXAHEDRON, hex_offs)). assert (Hpp : In pp (hex_pat false)) by (left; reflexivity).
      destruct (gm_stamp _ _ _ _ _ _ _ _ _ _ G cc pp Icc Hpp) as (id & Hid & He). exists id. split; [exact Hid|].
      rewrite (gm_coords _ _ _ _ _ _ _ _ _ _ G id cc pp He Icc Hpp).
      apply (in_hull_veq (corners (hex_pos o u v w nu nv nw cc) (edge u nu) (edge v nv) (edge w nw)) _ p p); [|reflexivity|].
      * apply Forall2_veq_sym. eapply Forall2_veq_trans; [|apply corners_cell]. apply Forall2_map_veq. intros r _. rewrite Hpos. now apply hex_pos_cell.
      * apply corners_hull. exists x, y, z. auto.
  - intros (id & Hid & Hh). apply corners_hull. revert Hh. apply hull_in_box.
    destruct (wf_get _ _ (proj2 (proj2 W)) Hid) as (e & He).
    destruct (gm_elem _ _ _ _ _ _ _ _ _ _ G _ _ He) as (c & pp & Hc & Hpp & ->).
    rewrite (gm_coords _ _ _ _ _ _ _ _ _ _ G id c pp He Hc Hpp). apply Forall_forall. intros q Hq. apply in_map_iff in Hq.
    destruct Hq as (x & <- & Hx). destruct (hex_pos_in o u v w nu nv nw (oadd c x) Hu Hv Hw) as (a & b & c' & Ha & Hb & Hc' & Eq).
    { now apply (gm_in _ _ _ _ _ _ _ _ _ _ G c pp x). }
    exists a, b, c'. rewrite <- Eq. split; [exact Ha|]. split; [exact Hb|]. split; [exact Hc'|]. apply Hpos.
Qed.

Lemma parallelepiped_own p0 p1 p2 p3 p4 p5 p6 p7 o u v w : parallelepiped [p0; p1; p2; p3; p4; p5; p6; p7] o u v w ->
  Forall2 veq [p0; p1; p2; p3; p4; p5; p6; p7] (corners p0 (vsub p1 p0) (vsub p3 p0) (vsub p4 p0)) /\
  (p0 =v= o /\ vsub p1 p0 =v= u /\ vsub p3 p0 =v= v /\ vsub p4 p0 =v= w).
Proof.
  unfold parallelepiped, corners. intros H.
  repeat match goal with H : Forall2 veq (_ :: _) (_ :: _) |- _ => inversion H; subst; clear H end.
  repeat match goal with H : Forall2 veq [] [] |- _ => clear H end.
  repeat match goal with H : _ =v= _ |- _ => destruct H as (? & ? & ?) end. unfold vadd, vsub in *; cbn [cx cy cz] in *.
  split; [repeat constructor|]; unfold veq; cbn [cx cy cz]; repeat split; lra.
Qed.

Lemma Forall2_veq_len l l' : Forall2 veq l l' -> length l = length l'.
Proof. induction 1; cbn; congruence. Qed.

Lemma hexahedra_fill vs o u v w nu nv nw d : parallelepiped vs o u v w -> 1 <= nu -> 1 <= nv -> 1 <= nw ->
  exists m, generate_hex vs nu nv nw d = Ok m /\
    nodes_at m [point_id nu nv 0 0 0; point_id nu nv nu 0 0; point_id nu nv nu nv 0; point_id nu nv 0 nv 0;
                point_id nu nv 0 0 nw; point_id nu nv nu 0 nw; point_id nu nv nu nv nw; point_id nu nv 0 nv nw] vs /\
    (forall id, In id (t_ids (m_elems m)) ->
       (vol d (elem_coords m id) == geo_hex_volume vs / inject_Z ((if d then 6 else 1) * (nu * nv * nw)))%Q) /\
    (qsum (map (fun id => vol d (elem_coords m id)) (t_ids (m_elems m))) == geo_hex_volume vs)%Q /\
    (geo_hex_volume vs == dot w (cross v u))%Q /\
    (forall p, in_hull vs p <-> exists id, In id (t_ids (m_elems m)) /\ in_hull (elem_coords m id) p).
Proof.
  intros P Hu Hv Hw. pose proof (Forall2_veq_len _ _ P) as L. cbn in L.
  destruct (eight vs L) as (p0 & p1 & p2 & p3 & p4 & p5 & p6 & p7 & ->).
  destruct (parallelepiped_own _ _ _ _ _ _ _ _ _ _ _ _ P) as (Own & E0 & Eu & Ev & Ew).
  destruct (generate_hex_gm p0 p1 p2 p3 p4 p5 p6 p7 nu nv nw d Hu Hv Hw) as (m & E & G). exists m. split; [exact E|].
  destruct (hex_fill _ _ _ _ _ nu nv nw d m Hu Hv Hw (fun c => reflexivity _) G) as (V & S & F).
  split; [|split; [|split; [|split]]].
  - clear E0 Eu Ev Ew. unfold nodes_at. unfold corners in Own.
    repeat match goal with H : Forall2 veq (_ :: _) (_ :: _) |- _ => inversion H; subst; clear H end.
    assert (X : forall i j k c, 0 <= i <= nu -> 0 <= j <= nv -> 0 <= k <= nw ->
      c =v= at_fractions p0 (vsub p1 p0) (vsub p3 p0) (vsub p4 p0) (frac i nu) (frac j nv) (frac k nw) ->
      exists c', t_get (m_nodes m) (point_id nu nv i j k) = Ok c' /\ c' =v= c).
    { intros i j k c Hi Hj Hk Ec. pose proof (gm_node _ _ _ _ _ _ _ _ _ _ G (i, j, k)) as H. rewrite !Z.add_simpl_r in H.
      eexists. split; [apply H; unfold inbox; cbn [ox oy oz fst snd]; lia|]. rewrite Ec. now apply hex_pos_eq. }
    pose proof (frac_full nu Hu) as F1. pose proof (frac_full nv Hv) as F2. pose proof (frac_full nw Hw) as F3.
    repeat constructor; apply X; try lia;
      match goal with H : ?a =v= _ |- ?a =v= _ => etransitivity; [exact H|] end;
      unfold at_fractions, veq, vadd, vscale; cbn [cx cy cz]; rewrite ?frac_zero, ?F1, ?F2, ?F3; repeat split; ring.
  - intros id Hid. rewrite (V id Hid), (hex_vol_veq _ _ Own). reflexivity.
  - rewrite S. symmetry. apply (hex_vol_veq _ _ Own).
  - rewrite (hex_vol_veq _ _ Own), corners_volume. now rewrite Eu, Ev, Ew.
  - intros p. rewrite <- F. split; apply in_hull_veq; try reflexivity; [exact Own|now apply Forall2_veq_sym].
Qed.

(** ** Quadrilaterals *)

Definition quad_pos (o u v : coord) (nu nv : Z) (c : off) : coord := vadd (vadd o (along u nu (ox c))) (along v nv (oy c)).

Lemma quad_pos_hex o u v nu nv c : quad_pos o u v nu nv c =v= hex_pos o u v vzero nu nv 1 c.
Proof. unfold quad_pos, hex_pos, along, veq, vadd, vscale, vzero. cbn [Z.ltb Z.compare cx cy cz]. repeat split; ring. Qed.

Lemma quad_nodes_ok o u v nu nv : grown
  (fold_left (fun st j => fold_left (fun st i => push st (vadd (vadd o (along u nu i)) (along v nv j))) (upto (nu + 1)) st)
     (upto (nv + 1)) (t_empty, 0)) (map (quad_pos o u v nu nv) (box_list (nu + 1) (nv + 1) 1)).
Proof.
  unfold box_list. change (upto 1) with [0]. cbn [flat_map]. rewrite app_nil_r, map_flat_map.
  change (flat_map ?f ?l) with ([] ++ flat_map f l).
  apply grown_fold; [|apply grown_empty]. intros st vs j G. rewrite map_map. unfold quad_pos. cbn [ox oy oz fst snd].
  rewrite <- flat_map_single. apply grown_fold; [|exact G]. clear st vs G. intros st vs i G. now apply grown_push.
Qed.

Lemma quad_cells_ok d nu nv : grown
  (fold_left (fun st j => fold_left (fun st i => fold_left push (quad_cell d nu i j) st) (upto nu) st) (upto nv) (t_empty, 0))
  (stamped (quad_pat d) nu nv 1).
Proof.
  unfold stamped, box_list. change (upto 1) with [0]. cbn [flat_map]. rewrite app_nil_r, flat_map_flat_map.
  change (flat_map ?f ?l) with ([] ++ flat_map f l).
  apply grown_fold; [|apply grown_empty]. intros st vs j G. rewrite flat_map_map.
  apply grown_fold; [|exact G]. clear st vs G. intros st vs i G. rewrite (quad_cell_stamp d nu nv). now apply grown_pushes.
Qed.

Lemma quad_pat_off d p (o : off) : In p (quad_pat d) -> In o (snd p) -> 0 <= ox o <= 1 /\ 0 <= oy o <= 1 /\ oz o = 0.
Proof.
  intros Hp Ho. destruct d; cbn in Hp; repeat destruct Hp as [<-|Hp]; try contradiction;
  cbn in Ho; repeat destruct Ho as [<-|Ho]; try contradiction; cbn; lia.
Qed.

Lemma generate_quad_gm p0 p1 p2 p3 nu nv d : 1 <= nu -> 1 <= nv ->
  exists m, generate_quad [p0; p1; p2; p3] nu nv d = Ok m /\
    gm flat_dirs (quad_pat d) (quad_pos p0 (vsub p1 p0) (vsub p3 p0) nu nv) nu nv 1 (nu + 1) (nv + 1) 1 m.
Proof.
  intros Hu Hv. eexists. split; [reflexivity|]. split.
  - apply quad_pat_check.
  - apply quad_nodes_ok.
  - reflexivity.
  - apply quad_cells_ok.
  - intros c p o Hc Hp Ho. pose proof (quad_pat_off d p o Hp Ho).
    unfold inbox, oadd in *; cbn [ox oy oz fst snd] in *. split; [lia|]. now rewrite !Z.add_simpl_r.
Qed.


Lemma quad_spread o u v nu nv d m : 1 <= nu -> 1 <= nv -> ~ (u =v= vzero /\ v =v= vzero) ->
  gm flat_dirs (quad_pat d) (quad_pos o u v nu nv) nu nv 1 (nu + 1) (nv + 1) 1 m -> spread m.
Proof.
  intros Hu Hv Hne G. assert (H1 : 1 <= 1) by lia.
  assert (Hcase : ~ u =v= vzero \/ ~ v =v= vzero) by (destruct (veq_dec u vzero), (veq_dec v vzero); tauto).
  destruct d.
  - pose (p := nth 0 (quad_pat true) (ET_NONE, [])). assert (Hp : In p (quad_pat true)) by (left; reflexivity).
    pose (F := pat_faces [p]).
    destruct Hcase as [H|H].
    + apply (gm_spread _ _ _ _ _ _ _ _ _ _ G p (nth 1 F (FT_NONE, [])) (nth 2 F (FT_NONE, []))); try assumption; try discriminate;
        try (cbn; tauto). rewrite !(mean_veq _ _ _ (quad_pos_hex o u v nu nv)), !mean_pos by assumption. intros E. apply H. apply (edge_zero u nu Hu).
      revert E. face_comp. unfold edge at 3 6. generalize (edge u nu) (edge v nv). intros [a b c] [a' b' c'].
      mean_tac. repeat split; lra.
    + apply (gm_spread _ _ _ _ _ _ _ _ _ _ G p (nth 0 F (FT_NONE, [])) (nth 2 F (FT_NONE, []))); try assumption; try discriminate;
        try (cbn; tauto). rewrite !(mean_veq _ _ _ (quad_pos_hex o u v nu nv)), !mean_pos by assumption. intros E. apply H. apply (edge_zero v nv Hv).
      revert E. face_comp. unfold edge at 3 6. generalize (edge u nu) (edge v nv). intros [a b c] [a' b' c'].
      mean_tac. repeat split; lra.
  - pose (p := nth 0 (quad_pat false) (ET_NONE, [])). assert (Hp : In p (quad_pat false)) by (left; reflexivity).
    pose (F := pat_faces [p]).
    destruct Hcase as [H|H].
    + apply (gm_spread _ _ _ _ _ _ _ _ _ _ G p (nth 1 F (FT_NONE, [])) (nth 3 F (FT_NONE, []))); try assumption; try discriminate;
        try (cbn; tauto). rewrite !(mean_veq _ _ _ (quad_pos_hex o u v nu nv)), !mean_pos by assumption. intros E. apply H. apply (edge_zero u nu Hu).
      revert E. face_comp. unfold edge at 3 6. generalize (edge u nu) (edge v nv). intros [a b c] [a' b' c'].
      mean_tac. repeat split; lra.
    + apply (gm_spread _ _ _ _ _ _ _ _ _ _ G p (nth 2 F (FT_NONE, [])) (nth 0 F (FT_NONE, []))); try assumption; try discriminate;
        try (cbn; tauto). rewrite !(mean_veq _ _ _ (quad_pos_hex o u v nu nv)), !mean_pos by assumption. intros E. apply H. apply (edge_zero v nv Hv).
      revert E. face_comp. unfold edge at 3 6. generalize (edge u nu) (edge v nv). intros [a b c] [a' b' c'].
      mean_tac. repeat split; lra.
Qed.

Lemma zlen_quad_pat d : zlen (quad_pat d) = if d then 2 else 1.
Proof. destruct d; reflexivity. Qed.

Lemma quad_generated p0 p1 p2 p3 nu nv d : 1 <= nu -> 1 <= nv ->
  exists m, generate_quad [p0; p1; p2; p3] nu nv d = Ok m /\ wf_mesh m /\ refs_ok m /\ t_size (m_faces m) = 0 /\
    t_ids (m_nodes m) = zrange (Z.to_nat ((nu + 1) * (nv + 1))) /\
    t_ids (m_elems m) = zrange (Z.to_nat ((if d then 2 else 1) * (nu * nv))) /\
    proper m (if d then ET_TRIANGLE else ET_QUADRILATERAL) /\
    forall i j, 0 <= i <= nu -> 0 <= j <= nv ->
      exists c, t_get (m_nodes m) (point_id nu nv i j 0) = Ok c /\
        c =v= at_fractions p0 (vsub p1 p0) (vsub p3 p0) vzero (frac i nu) (frac j nv) 0.
Proof.
  intros Hu Hv. destruct (generate_quad_gm p0 p1 p2 p3 nu nv d Hu Hv) as (m & E & G). exists m.
  split; [exact E|]. split; [apply (gm_wf _ _ _ _ _ _ _ _ _ _ G)|]. split; [apply (gm_refs _ _ _ _ _ _ _ _ _ _ G)|].
  split; [apply (gm_size _ _ _ _ _ _ _ _ _ _ G)|].
  split. { rewrite (gm_node_ids _ _ _ _ _ _ _ _ _ _ G) by lia. do 2 f_equal. lia. }
  split. { rewrite <- zlen_quad_pat. rewrite (gm_elem_ids _ _ _ _ _ _ _ _ _ _ G) by lia. do 2 f_equal. lia. }
  split. { apply (gm_proper _ _ _ _ _ _ _ _ _ _ G). intros p Hp. destruct d; cbn in Hp; repeat destruct Hp as [<-|Hp]; try contradiction; reflexivity. }
  intros i j Hi Hj. eexists. split.
  - pose proof (gm_node _ _ _ _ _ _ _ _ _ _ G (i, j, 0)) as H. rewrite !Z.add_simpl_r in H. apply H.
    unfold inbox; cbn [ox oy oz fst snd]. lia.
  - unfold quad_pos. rewrite !along_eq by assumption. cbn [ox oy oz fst snd].
    unfold at_fractions, veq, vadd, vscale, vzero; cbn [cx cy cz]. repeat split; ring.
Qed.

Lemma quad_conforming p0 p1 p2 p3 nu nv d n tol : 1 <= nu -> 1 <= nv ->
  ~ (p1 =v= p0 /\ p3 =v= p0) -> 1 <= n <= int_max -> (0 <= tol)%Q ->
  exists m m' nb bm, generate_quad [p0; p1; p2; p3] nu nv d = Ok m /\
    generateFaces n tol m = Ok (m', nb) /\ m_nodes m' = m_nodes m /\
    conforming (m_faces m') (on_plane_side nu nv) /\ opposed_edges (m_faces m') /\
    nb = 2 * (nu + nv) /\
    extractBoundary n tol m = Ok (bm, m') /\ t_ids (m_elems bm) = zrange (Z.to_nat nb) /\
    exists ends, polygons (m_elems bm) = map (fun p => [fst p; snd p]) ends /\
      forall x, count_occ Z.eq_dec (map fst ends) x = count_occ Z.eq_dec (map snd ends) x.
Proof.
  intros Hu Hv Hne Hn Htol. destruct (generate_quad_gm p0 p1 p2 p3 nu nv d Hu Hv) as (m & E & G).
  assert (Sp : spread m).
  { apply (quad_spread p0 (vsub p1 p0) (vsub p3 p0) nu nv d m Hu Hv); [|exact G]. intros (H1 & H2). apply Hne.
    unfold veq, vsub, vzero in *; cbn [cx cy cz] in *. repeat split; lra. }
  pose proof (gm_wf _ _ _ _ _ _ _ _ _ _ G) as W. pose proof (gm_refs _ _ _ _ _ _ _ _ _ _ G) as R.
  destruct (conform_ok (quad_pat d) flat_dirs nu nv 1 (on_plane_side nu nv) n tol m (quad_pat_check d) Hn Htol W R Sp
    (gm_elems _ _ _ _ _ _ _ _ _ _ G)) as (m' & nb & EF & En & Cf & Hnb & Rv).
  { intros c f Hc Hf Hne' Hcube. now apply (plane_side d). }
  specialize (Rv (quad_rev_check d)).
  assert (Enough : enough m).
  { intros id e He. destruct (numbered_get _ _ _ _ (gm_elems _ _ _ _ _ _ _ _ _ _ G) He) as (k & _ & Hk).
    apply nth_error_In in Hk. destruct (stamped_elem _ _ _ _ _ (gm_ec _ _ _ _ _ _ _ _ _ _ G) Hk) as (c & p & _ & _ & _ & L & _). lia. }
  destruct (boundary_ok n tol m Hn Htol W R Enough Sp) as (bm & m2 & nb2 & EB & EF2 & Wb & Rb & Ib & _).
  assert (m2 = m' /\ nb2 = nb) as [-> ->] by (split; congruence).
  exists m, m', nb, bm. split; [exact E|]. split; [exact EF|]. split; [exact En|]. split; [exact Cf|]. split; [exact Rv|].
  split.
  { rewrite Hnb. destruct d.
    - let l := eval vm_compute in (outdirs (quad_pat true)) in change (outdirs (quad_pat true)) with l.
      cbn [map]. rewrite ?missing_zero, ?missing_x, ?missing_y, ?missing_z by lia. unfold zsum; cbn [fold_right]. lia.
    - let l := eval vm_compute in (outdirs (quad_pat false)) in change (outdirs (quad_pat false)) with l.
      cbn [map]. rewrite ?missing_zero, ?missing_x, ?missing_y, ?missing_z by lia. unfold zsum; cbn [fold_right]. lia. }
  split; [exact EB|]. split; [exact Ib|].
  destruct Cf as (C1 & C2 & C3 & C4).
  apply (loops_ok n tol m bm m'); try assumption.
  intros id e He. destruct (gm_elem _ _ _ _ _ _ _ _ _ _ G _ _ He) as (c & p & _ & Hp & ->).
  destruct d; cbn in Hp; repeat destruct Hp as [<-|Hp]; try contradiction; (split; [cbn; auto|reflexivity]).
Qed.

Definition pcorners (o u v : coord) : list coord := [o; vadd o u; vadd o (vadd u v); vadd o v].
Definition tri_corners (d2 : bool) (o u v : coord) : list coord :=
  if d2 then [o; vadd o (vadd u v); vadd o v] else [o; vadd o u; vadd o (vadd u v)].

Ltac box_corner a b := exists a, b, 0%Q; unfold unit01; repeat split; try lra; unfold at_fractions, veq, vadd, vscale, vzero; cbn [cx cy cz]; ring.

Lemma pcorners_hull o u v p :
  in_hull (pcorners o u v) p <-> exists a b, unit01 a /\ unit01 b /\ p =v= at_fractions o u v vzero a b 0.
Proof.
  split.
  - intros H. apply (hull_in_box o u v vzero) in H.
    + destruct H as (a & b & c & Ha & Hb & _ & E). exists a, b. split; [exact Ha|]. split; [exact Hb|]. rewrite E.
      unfold at_fractions, veq, vadd, vscale, vzero; cbn [cx cy cz]. repeat split; ring.
    + repeat constructor; [box_corner 0%Q 0%Q|box_corner 1%Q 0%Q|box_corner 1%Q 1%Q|box_corner 0%Q 1%Q].
  - intros (a & b & [A1 A2] & [B1 B2] & E). exists [(1-a)*(1-b); a*(1-b); a*b; (1-a)*b]%Q. split; [reflexivity|]. split.
    + intros x Hx; cbn in Hx; repeat destruct Hx as [<-|Hx]; try contradiction; nra.
    + split; [cbn; ring|]. rewrite E. unfold pcorners. hull_tac.
Qed.

Lemma tris_cover o u v a b : unit01 a -> unit01 b ->
  exists d2, in_hull (tri_corners d2 o u v) (at_fractions o u v vzero a b 0).
Proof.
  intros [A1 A2] [B1 B2]. destruct (Qlt_le_dec a b) as [H|H].
  - exists true, [1 - b; a; b - a]%Q. split; [reflexivity|]. split; [|split; [cbn; ring|unfold tri_corners; hull_tac]].
    intros x Hx; cbn in Hx; repeat destruct Hx as [<-|Hx]; try contradiction; lra.
  - exists false, [1 - a; a - b; b]%Q. split; [reflexivity|]. split; [|split; [cbn; ring|unfold tri_corners; hull_tac]].
    intros x Hx; cbn in Hx; repeat destruct Hx as [<-|Hx]; try contradiction; lra.
Qed.


Lemma area_veq d l l' : Forall2 veq l l' -> area d l =v= area d l'.
Proof.
  intros H. unfold area. destruct d.
  - inversion H as [|? ? ? ? E0 H0]; subst; [reflexivity|]. inversion H0 as [|? ? ? ? E1 H1]; subst; [reflexivity|].
    inversion H1 as [|? ? ? ? E2 H2]; subst; [reflexivity|]. cbn [geo_tri_normal]. now rewrite E0, E1, E2.
  - inversion H as [|? ? ? ? E0 H0]; subst; [reflexivity|]. inversion H0 as [|? ? ? ? E1 H1]; subst; [reflexivity|].
    inversion H1 as [|? ? ? ? E2 H2]; subst; [reflexivity|]. inversion H2 as [|? ? ? ? E3 H3]; subst; [reflexivity|].
    cbn [geo_quad_normal]. now rewrite E0, E1, E2, E3.
Qed.

Lemma quad_pos_cell o u v nu nv c x : 1 <= nu -> 1 <= nv ->
  quad_pos o u v nu nv (oadd c x) =v=
  at_fractions (quad_pos o u v nu nv c) (edge u nu) (edge v nv) vzero (inject_Z (ox x)) (inject_Z (oy x)) 0.
Proof.
  intros Hu Hv. rewrite quad_pos_hex. rewrite hex_pos_cell by (assumption || lia). unfold at_fractions. rewrite <- quad_pos_hex.
  unfold edge, veq, vadd, vscale, vzero; cbn [cx cy cz]. repeat split; ring.
Qed.

Lemma quad_cell_corners o u v nu nv d m id c p : 1 <= nu -> 1 <= nv ->
  gm flat_dirs (quad_pat d) (quad_pos o u v nu nv) nu nv 1 (nu + 1) (nv + 1) 1 m ->
  t_get (m_elems m) id = Ok (stamp nu nv c p) -> inbox nu nv 1 c -> In p (quad_pat d) ->
  Forall2 veq (elem_coords m id)
    (map (fun x : off => at_fractions (quad_pos o u v nu nv c) (edge u nu) (edge v nv) vzero (inject_Z (ox x)) (inject_Z (oy x)) 0) (snd p)).
Proof.
  intros Hu Hv G He Hc Hp. rewrite (gm_coords _ _ _ _ _ _ _ _ _ _ G id c p He Hc Hp). apply Forall2_map_veq.
  intros x _. now apply quad_pos_cell.
Qed.

Lemma quad_offs_corners o u v : Forall2 veq
  (map (fun x : off => at_fractions o u v vzero (inject_Z (ox x)) (inject_Z (oy x)) 0) quad_offs) (pcorners o u v).
Proof.
  unfold pcorners, quad_offs; cbn [map ox oy oz fst snd]; repeat constructor;
  unfold at_fractions, veq, vadd, vscale, vzero; cbn [cx cy cz]; ring.
Qed.

Definition tri_pat (d2 : bool) : etype * list off := nth (if d2 then 1 else 0)%nat (quad_pat true) (ET_NONE, []).
Lemma tri_offs_corners d2 o u v : Forall2 veq
  (map (fun x : off => at_fractions o u v vzero (inject_Z (ox x)) (inject_Z (oy x)) 0) (snd (tri_pat d2))) (tri_corners d2 o u v).
Proof.
  destruct d2; cbn [tri_pat nth quad_pat snd map ox oy oz fst]; repeat constructor;
  unfold at_fractions, veq, vadd, vscale, vzero; cbn [cx cy cz]; ring.
Qed.

Lemma vsum_const {A} (f : A -> coord) l c : (forall a, In a l -> f a =v= c) -> vsum (map f l) =v= vscale (inject_Z (zlen l)) c.
Proof.
  unfold zlen. induction l as [|a l IH]; intros H.
  - cbn. unfold veq, vscale, vzero; cbn [cx cy cz]. repeat split; ring.
  - cbn [map vsum fold_right length]. fold (vsum (map f l)).
    rewrite H by now left. rewrite IH by (intros; apply H; now right). rewrite Nat2Z.inj_succ. unfold Z.succ.
    unfold veq, vadd, vscale; cbn [cx cy cz]. rewrite inject_Z_plus. change (inject_Z 1) with 1%Q. repeat split; ring.
Qed.

Lemma quad_fill o u v nu nv d m : 1 <= nu -> 1 <= nv ->
  gm flat_dirs (quad_pat d) (quad_pos o u v nu nv) nu nv 1 (nu + 1) (nv + 1) 1 m ->
  (forall id, In id (t_ids (m_elems m)) ->
     area d (elem_coords m id) =v= vscale (1 / inject_Z ((if d then 2 else 1) * (nu * nv))) (geo_quad_normal (pcorners o u v))) /\
  vsum (map (fun id => area d (elem_coords m id)) (t_ids (m_elems m))) =v= geo_quad_normal (pcorners o u v) /\
  (forall p, in_hull (pcorners o u v) p <-> exists id, In id (t_ids (m_elems m)) /\ in_hull (elem_coords m id) p).
Proof.
  intros Hu Hv G. pose proof (gm_wf _ _ _ _ _ _ _ _ _ _ G) as W.
  assert (N0 : forall n, 1 <= n -> ~ (inject_Z n == 0)%Q) by (intros n H E; unfold Qeq in E; cbn in E; lia).
  assert (V : forall id, In id (t_ids (m_elems m)) ->
     area d (elem_coords m id) =v= vscale (1 / inject_Z ((if d then 2 else 1) * (nu * nv))) (geo_quad_normal (pcorners o u v))).
  { intros id Hid. destruct (wf_get _ _ (proj2 (proj2 W)) Hid) as (e & He).
    destruct (gm_elem _ _ _ _ _ _ _ _ _ _ G _ _ He) as (c & p & Hc & Hp & ->).
    pose proof (quad_cell_corners o u v nu nv d m id c p Hu Hv G He Hc Hp) as X. rewrite (area_veq d _ _ X).
    pose proof (N0 _ Hu). pose proof (N0 _ Hv). 
    generalize (quad_pos o u v nu nv c). intros O.
    destruct d; cbn in Hp; repeat destruct Hp as [<-|Hp]; try contradiction; cbn [snd map ox oy oz fst area quad_offs];
      unfold geo_tri_normal, geo_quad_normal, pcorners, at_fractions, edge, frac, cross, veq, vadd, vsub, vscale, vzero; cbn [cx cy cz];
      rewrite !inject_Z_mult; change (inject_Z 1) with 1%Q; change (inject_Z 0) with 0%Q; change (inject_Z 2) with 2%Q;
      repeat split; field; auto. }
  split; [exact V|]. split.
  { rewrite (vsum_const _ _ _ V). rewrite (gm_elem_ids _ _ _ _ _ _ _ _ _ _ G) by lia. rewrite zlen_quad_pat.
    unfold zlen. rewrite zrange_length. assert (1 <= nu * nv) by nia. rewrite Z2Nat.id by (destruct d; nia).
    rewrite Z.mul_1_r. assert (~ inject_Z ((if d then 2 else 1) * (nu * nv)) == 0)%Q by (apply N0; destruct d; nia).
    unfold veq, vscale; cbn [cx cy cz]. repeat split; field; assumption. }
  intros p. split.
  - intros Hp. apply pcorners_hull in Hp. destruct Hp as (a & b & Ha & Hb & E).
    destruct (interval nu a Hu Ha) as (i & Hi & x & Hx & Ea). destruct (interval nv b Hv Hb) as (j & Hj & y & Hy & Eb).
    set (cc := (i, j, 0) : off). assert (Icc : inbox nu nv 1 cc) by (unfold inbox, cc; cbn [ox oy oz fst snd]; lia).
    assert (Ep : p =v= at_fractions (quad_pos o u v nu nv cc) (edge u nu) (edge v nv) vzero x y 0).
    { rewrite E. unfold quad_pos. unfold at_fractions. rewrite !along_eq by assumption. unfold cc, edge; cbn [ox oy oz fst snd].
      unfold veq, vadd, vscale, vzero; cbn [cx cy cz]. rewrite Ea, Eb. repeat split; ring. }
    destruct d.
    + destruct (tris_cover (quad_pos o u v nu nv cc) (edge u nu) (edge v nv) x y Hx Hy) as (d2 & Hh).
      assert (Hpp : In (tri_pat d2) (quad_pat true)) by (destruct d2; cbn; tauto).
      destruct (gm_stamp _ _ _ _ _ _ _ _ _ _ G cc (tri_pat d2) Icc Hpp) as (id & Hid & He). exists id. split; [exact Hid|].
      eapply in_hull_veq; [|symmetry; exact Ep|exact Hh]. apply Forall2_veq_sym.
      eapply Forall2_veq_trans; [exact (quad_cell_corners o u v nu nv true m id cc _ Hu Hv G He Icc Hpp)|apply tri_offs_corners].
    + set (pp := (ET_QUADRILATERAL, quad_offs)). assert (Hpp : In pp (quad_pat false)) by (left; reflexivity).
      destruct (gm_stamp _ _ _ _ _ _ _ _ _ _ G cc pp Icc Hpp) as (id & Hid & He). exists id. split; [exact Hid|].
      apply (in_hull_veq (pcorners (quad_pos o u v nu nv cc) (edge u nu) (edge v nv)) _ p p); [|reflexivity|].
      * apply Forall2_veq_sym.
        eapply Forall2_veq_trans; [exact (quad_cell_corners o u v nu nv false m id cc _ Hu Hv G He Icc Hpp)|apply quad_offs_corners].
      * apply pcorners_hull. exists x, y. auto.
  - intros (id & Hid & Hh). apply pcorners_hull.
    destruct (wf_get _ _ (proj2 (proj2 W)) Hid) as (e & He).
    destruct (gm_elem _ _ _ _ _ _ _ _ _ _ G _ _ He) as (c & pp & Hc & Hpp & ->).
    apply (hull_in_box o u v vzero) in Hh.
    + destruct Hh as (a & b & c0 & Ha & Hb & _ & E). exists a, b. split; [exact Ha|]. split; [exact Hb|]. rewrite E.
      unfold at_fractions, veq, vadd, vscale, vzero; cbn [cx cy cz]. repeat split; ring.
    + rewrite (gm_coords _ _ _ _ _ _ _ _ _ _ G id c pp He Hc Hpp). apply Forall_forall. intros q Hq. apply in_map_iff in Hq.
      destruct Hq as (x & <- & Hx). destruct (hex_pos_in o u v vzero nu nv 1 (oadd c x)) as (a & b & c' & Ha & Hb & Hc' & Eq); try lia.
      { pose proof (gm_in _ _ _ _ _ _ _ _ _ _ G c pp x Hc Hpp Hx) as [I _]. unfold inbox in *. lia. }
      exists a, b, c'. rewrite <- Eq. split; [exact Ha|]. split; [exact Hb|]. split; [exact Hc'|]. apply quad_pos_hex.
Qed.

Lemma quadrilaterals_fill vs o u v nu nv d : parallelogram vs o u v -> 1 <= nu -> 1 <= nv ->
  exists m, generate_quad vs nu nv d = Ok m /\
    nodes_at m [point_id nu nv 0 0 0; point_id nu nv nu 0 0; point_id nu nv nu nv 0; point_id nu nv 0 nv 0] vs /\
    (forall id, In id (t_ids (m_elems m)) ->
       area d (elem_coords m id) =v= vscale (1 / inject_Z ((if d then 2 else 1) * (nu * nv))) (geo_quad_normal vs)) /\
    vsum (map (fun id => area d (elem_coords m id)) (t_ids (m_elems m))) =v= geo_quad_normal vs /\
    geo_quad_normal vs =v= vscale 2 (cross u v) /\
    (forall p, in_hull vs p <-> exists id, In id (t_ids (m_elems m)) /\ in_hull (elem_coords m id) p).
Proof.
  intros P Hu Hv. pose proof (Forall2_veq_len _ _ P) as L. cbn in L.
  destruct (four vs L) as (p0 & p1 & p2 & p3 & ->).
  assert (Own : Forall2 veq [p0; p1; p2; p3] (pcorners p0 (vsub p1 p0) (vsub p3 p0)) /\ vsub p1 p0 =v= u /\ vsub p3 p0 =v= v).
  { unfold parallelogram, pcorners in *.
    repeat match goal with H : Forall2 veq (_ :: _) (_ :: _) |- _ => inversion H; subst; clear H end.
    repeat match goal with H : Forall2 veq [] [] |- _ => clear H end.
    repeat match goal with H : _ =v= _ |- _ => destruct H as (? & ? & ?) end. unfold vadd, vsub in *; cbn [cx cy cz] in *.
    split; [repeat constructor|]; unfold veq; cbn [cx cy cz]; repeat split; lra. }
  destruct Own as (Own & Eu & Ev).
  destruct (generate_quad_gm p0 p1 p2 p3 nu nv d Hu Hv) as (m & E & G). exists m. split; [exact E|].
  destruct (quad_fill _ _ _ nu nv d m Hu Hv G) as (V & S & F).
  pose proof (area_veq false _ _ Own) as EA. cbn [area] in EA.
  split; [|split; [|split; [|split]]].
  - clear EA Eu Ev. unfold nodes_at. unfold pcorners in Own.
    repeat match goal with H : Forall2 veq (_ :: _) (_ :: _) |- _ => inversion H; subst; clear H end.
    assert (X : forall i j c, 0 <= i <= nu -> 0 <= j <= nv ->
      c =v= at_fractions p0 (vsub p1 p0) (vsub p3 p0) vzero (frac i nu) (frac j nv) 0 ->
      exists c', t_get (m_nodes m) (point_id nu nv i j 0) = Ok c' /\ c' =v= c).
    { intros i j c Hi Hj Ec. pose proof (gm_node _ _ _ _ _ _ _ _ _ _ G (i, j, 0)) as H. rewrite !Z.add_simpl_r in H.
      eexists. split; [apply H; unfold inbox; cbn [ox oy oz fst snd]; lia|]. rewrite Ec.
      unfold quad_pos. rewrite !along_eq by assumption. cbn [ox oy oz fst snd].
      unfold at_fractions, veq, vadd, vscale, vzero; cbn [cx cy cz]. repeat split; ring. }
    pose proof (frac_full nu Hu) as F1. pose proof (frac_full nv Hv) as F2.
    repeat constructor; apply X; try lia;
      match goal with H : ?a =v= _ |- ?a =v= _ => etransitivity; [exact H|] end;
      unfold at_fractions, veq, vadd, vscale, vzero; cbn [cx cy cz]; rewrite ?frac_zero, ?F1, ?F2; repeat split; ring.
  - intros id Hid. rewrite (V id Hid), EA. reflexivity.
  - rewrite S. now symmetry.
  - rewrite EA. assert (X : forall a b, geo_quad_normal (pcorners p0 a b) =v= vscale 2 (cross a b)).
    { intros a b. unfold geo_quad_normal, pcorners, cross, veq, vadd, vsub, vscale; cbn [cx cy cz]. repeat split; ring. }
    now rewrite X, Eu, Ev.
  - intros p. rewrite <- F. split; apply in_hull_veq; try reflexivity; [exact Own|now apply Forall2_veq_sym].
Qed.

(** ** Lines *)

Definition line_pos (a vec : coord) (nu : Z) (c : off) : coord := vadd a (along vec nu (ox c)).

Lemma generate_line_gm a vec nu : 1 <= nu ->
  gm line_dirs line_pat (line_pos a vec nu) nu 1 1 (nu + 1) 1 1 (generate_line a vec nu).
Proof.
  intros Hu. split.
  - apply line_pat_check.
  - cbn [generate_line m_nodes]. unfold box_list. change (upto 1) with [0]. cbn [flat_map]. rewrite !app_nil_r, map_map.
    rewrite <- flat_map_single. change (flat_map ?f ?l) with ([] ++ flat_map f l).
    apply (grown_fold (fun st i => push st (vadd a (along vec nu i)))); [|apply grown_empty]. intros st vs i G. now apply grown_push.
  - reflexivity.
  - cbn [generate_line m_elems]. unfold stamped, box_list. change (upto 1) with [0]. cbn [flat_map]. rewrite !app_nil_r, flat_map_map.
    change (flat_map ?f ?l) with ([] ++ flat_map f l).
    apply (grown_fold (fun st i => push st (Element ET_BEAM [i; i + 1] []))); [|apply grown_empty]. intros st vs i G.
    cbn [map line_pat]. replace (stamp nu 1 (i, 0, 0) (ET_BEAM, [(0,0,0); (1,0,0)])) with (Element ET_BEAM [i; i + 1] []); [now apply grown_push|].
    unfold stamp, pid, point_id, oadd; cbn [fst snd map ox oy oz]. list_ring.
  - intros c p o Hc [<-|[]] Ho. cbn [snd] in Ho. unfold inbox, oadd, pid, point_id in *.
    destruct Ho as [<-|[<-|[]]]; cbn [ox oy oz fst snd]; (split; [lia|]);
      replace (oy c) with 0 by lia; replace (oz c) with 0 by lia; ring.
Qed.

Lemma line_generated a vec nu : 1 <= nu ->
  let m := generate_line a vec nu in
  wf_mesh m /\ refs_ok m /\ t_size (m_faces m) = 0 /\
  t_ids (m_nodes m) = zrange (Z.to_nat (nu + 1)) /\ t_ids (m_elems m) = zrange (Z.to_nat nu) /\ proper m ET_BEAM /\
  (forall i, 0 <= i <= nu -> exists c, t_get (m_nodes m) i = Ok c /\ c =v= vadd a (vscale (frac i nu) vec)) /\
  (forall i, 0 <= i < nu -> t_get (m_elems m) i = Ok (Element ET_BEAM [i; i + 1] [])).
Proof.
  intros Hu m. pose proof (generate_line_gm a vec nu Hu) as G. fold m in G.
  split; [apply (gm_wf _ _ _ _ _ _ _ _ _ _ G)|]. split; [apply (gm_refs _ _ _ _ _ _ _ _ _ _ G)|].
  split; [apply (gm_size _ _ _ _ _ _ _ _ _ _ G)|].
  split. { rewrite (gm_node_ids _ _ _ _ _ _ _ _ _ _ G) by lia. do 2 f_equal. lia. }
  split. { rewrite (gm_elem_ids _ _ _ _ _ _ _ _ _ _ G) by lia. do 2 f_equal. change (zlen line_pat) with 1. lia. }
  split. { apply (gm_proper _ _ _ _ _ _ _ _ _ _ G). intros p [<-|[]]. reflexivity. }
  split.
  - intros i Hi. eexists. split.
    + pose proof (gm_node _ _ _ _ _ _ _ _ _ _ G (i, 0, 0)) as H. unfold pid, point_id in H; cbn [ox oy oz fst snd] in H.
      rewrite Z.add_0_r, Z.mul_0_r in H. rewrite Z.add_0_r in H. apply H. unfold inbox; cbn [ox oy oz fst snd]. lia.
    + unfold line_pos; cbn [ox fst]. now rewrite along_eq by assumption.
  - intros i Hi. pose proof (nb_get _ _ (gm_elems _ _ _ _ _ _ _ _ _ _ G) (Z.to_nat i)) as H. rewrite Z2Nat.id in H by lia. apply H.
    unfold stamped. pose proof (nth_flat_map_const (fun c => map (stamp nu 1 c) line_pat) 1 (box_list nu 1 1) (Z.to_nat i) 0) as X.
    rewrite Nat.mul_1_r, Nat.add_0_r in X. rewrite X by (reflexivity || lia).
    pose proof (box_list_nth_error nu 1 1 (i, 0, 0)) as Y. unfold pid, point_id in Y; cbn [ox oy oz fst snd] in Y.
    replace (i + (nu - 1 + 1) * (0 + (1 - 1 + 1) * 0)) with i in Y by ring.
    assert (Y1 : @nth_error (Z * Z * Z) (box_list nu 1 1) (Z.to_nat i) = Some (i, 0, 0)) by (apply Y; unfold inbox; cbn [ox oy oz fst snd]; lia).
    first [rewrite Y1|change (@nth_error (Z * Z * Z)) with (@nth_error off) in Y1; rewrite Y1].
    cbn [nth_error map line_pat]. f_equal. unfold stamp, pid, point_id, oadd; cbn [fst snd map ox oy oz]. list_ring.
Qed.

Lemma line_conforming a vec nu n tol : 1 <= nu -> ~ vec =v= vzero -> 1 <= n <= int_max -> (0 <= tol)%Q ->
  exists m' nb, generateFaces n tol (generate_line a vec nu) = Ok (m', nb) /\
    conforming (m_faces m') (on_line_end nu) /\ nb = 2.
Proof.
  intros Hu Hne Hn Htol. pose proof (generate_line_gm a vec nu Hu) as G. set (m := generate_line a vec nu) in *.
  assert (Sp : spread m).
  { set (p := (ET_BEAM, [(0,0,0); (1,0,0)]) : etype * list off). assert (Hp : In p line_pat) by (left; reflexivity).
    pose (F := pat_faces [p]). assert (H1 : 1 <= 1) by lia.
    apply (gm_spread _ _ _ _ _ _ _ _ _ _ G p (nth 1 F (FT_NONE, [])) (nth 0 F (FT_NONE, []))); try assumption; try discriminate;
      try (cbn; tauto). face_comp. intros E. apply Hne. apply (edge_zero vec nu Hu). revert E. unfold line_pos. cbn [map ox fst].
    unfold mean. cbn [map fold_left]. unfold zlen; cbn [length]. rewrite !along_eq by assumption. unfold edge.
    intros (X & Y & Z0). unfold veq, vadd, vscale, vzero in *; cbn [cx cy cz] in *. 
    rewrite !frac_zero in X, Y, Z0. change (/ inject_Z (Z.of_nat 1))%Q with 1%Q in *. repeat split; lra. }
  destruct (conform_ok line_pat line_dirs nu 1 1 (on_line_end nu) n tol m line_pat_check Hn Htol
    (gm_wf _ _ _ _ _ _ _ _ _ _ G) (gm_refs _ _ _ _ _ _ _ _ _ _ G) Sp (gm_elems _ _ _ _ _ _ _ _ _ _ G)) as (m' & nb & EF & En & Cf & Hnb & _).
  { intros c f Hc Hf Hne' Hcube. now apply line_end. }
  exists m', nb. split; [exact EF|]. split; [exact Cf|]. rewrite Hnb.
  let l := eval vm_compute in (outdirs line_pat) in change (outdirs line_pat) with l.
  cbn [map]. rewrite ?missing_zero, ?missing_x by lia. reflexivity.
Qed.

Lemma line_fill a vec nu : 1 <= nu ->
  let m := generate_line a vec nu in
  nodes_at m [0; nu] [a; vadd a vec] /\
  (forall id, In id (t_ids (m_elems m)) -> length_vector (elem_coords m id) =v= vscale (1 / inject_Z nu) vec) /\
  vsum (map (fun id => length_vector (elem_coords m id)) (t_ids (m_elems m))) =v= vec /\
  (forall p, in_hull [a; vadd a vec] p <-> exists id, In id (t_ids (m_elems m)) /\ in_hull (elem_coords m id) p).
Proof.
  intros Hu m. pose proof (line_generated a vec nu Hu) as L. fold m in L. cbn zeta in L.
  destruct L as (W & R & _ & Hn & He & _ & Hpos & Hel).
  assert (N0 : ~ (inject_Z nu == 0)%Q) by (intros E; unfold Qeq in E; cbn in E; lia).
  assert (Hc : forall i, 0 <= i < nu -> exists c1 c2, elem_coords m i = [c1; c2] /\
    c1 =v= vadd a (vscale (frac i nu) vec) /\ c2 =v= vadd a (vscale (frac (i + 1) nu) vec)).
  { intros i Hi. destruct (Hpos i) as (c1 & E1 & V1); [lia|]. destruct (Hpos (i + 1)) as (c2 & E2 & V2); [lia|].
    exists c1, c2. split; [|split; assumption]. unfold elem_coords. rewrite Hel by assumption. cbn [e_nodes map]. now rewrite E1, E2. }
  assert (Hid : forall id, In id (t_ids (m_elems m)) <-> 0 <= id < nu).
  { intros id. rewrite He, zrange_in. lia. }
  assert (V : forall id, In id (t_ids (m_elems m)) -> length_vector (elem_coords m id) =v= vscale (1 / inject_Z nu) vec).
  { intros id H. destruct (Hc id (proj1 (Hid id) H)) as (c1 & c2 & -> & E1 & E2). unfold length_vector. rewrite E1, E2.
    unfold veq, vadd, vsub, vscale; cbn [cx cy cz]. rewrite !frac_add. unfold frac. repeat split; field; exact N0. }
  split.
  { destruct (Hpos 0) as (c1 & E1 & V1); [lia|]. destruct (Hpos nu) as (c2 & E2 & V2); [lia|]. pose proof (frac_full nu Hu) as F.
    constructor; [|constructor; [|constructor]].
    - exists c1. split; [exact E1|]. rewrite V1. unfold veq, vadd, vscale; cbn [cx cy cz]. rewrite frac_zero. repeat split; ring.
    - exists c2. split; [exact E2|]. rewrite V2. unfold veq, vadd, vscale; cbn [cx cy cz]. rewrite F. repeat split; ring. }
  split; [exact V|]. split.
  { rewrite (vsum_const _ _ _ V), He. unfold zlen. rewrite zrange_length, Z2Nat.id by lia.
    unfold veq, vscale; cbn [cx cy cz]. repeat split; field; exact N0. }
  assert (Hseg : forall o v p, in_hull [o; vadd o v] p <-> exists x, unit01 x /\ p =v= vadd o (vscale x v)).
  { intros o v p. split.
    - intros H. apply (hull_in_box o v vzero vzero) in H.
      + destruct H as (x & b & c & Hx & _ & _ & E). exists x. split; [exact Hx|]. rewrite E.
        unfold at_fractions, veq, vadd, vscale, vzero; cbn [cx cy cz]. repeat split; ring.
      + repeat constructor; [box_corner 0%Q 0%Q|box_corner 1%Q 0%Q].
    - intros (x & [X1 X2] & E). exists [1 - x; x]%Q. split; [reflexivity|]. split.
      + intros y [<-|[<-|[]]]; lra.
      + split; [cbn; ring|]. rewrite E. hull_tac. }
  assert (Hcell : forall i, 0 <= i < nu -> Forall2 veq (elem_coords m i)
    [vadd a (vscale (frac i nu) vec); vadd (vadd a (vscale (frac i nu) vec)) (edge vec nu)]).
  { intros i Hi. destruct (Hc i Hi) as (c1 & c2 & -> & E1 & E2). constructor; [exact E1|]. constructor; [|constructor]. rewrite E2.
    unfold edge, veq, vadd, vscale; cbn [cx cy cz]. rewrite frac_add. repeat split; ring. }
  intros p. rewrite Hseg. split.
  - intros (x & Hx & E). destruct (interval nu x Hu Hx) as (i & Hi & y & Hy & Ex). exists i. split; [now apply Hid|].
    eapply in_hull_veq; [apply Forall2_veq_sym, Hcell, Hi|reflexivity|]. apply Hseg. exists y. split; [exact Hy|]. rewrite E.
    unfold edge, veq, vadd, vscale; cbn [cx cy cz]. rewrite Ex. repeat split; ring.
  - intros (i & Hi & H). apply Hid in Hi.
    assert (H' : in_hull [vadd a (vscale (frac i nu) vec); vadd (vadd a (vscale (frac i nu) vec)) (edge vec nu)] p).
    { eapply in_hull_veq; [apply Hcell, Hi|reflexivity|exact H]. }
    apply Hseg in H'. destruct H' as (y & [Y1 Y2] & E). exists (frac i nu + frac 1 nu * y)%Q. split.
    + pose proof (frac_range i nu Hu) as F0. pose proof (frac_range (i + 1) nu Hu) as F1. unfold unit01 in *. rewrite frac_add in F1.
      pose proof (frac_one_pos nu Hu). assert (0 <= frac i nu <= 1)%Q by (apply F0; lia). assert (frac i nu + frac 1 nu <= 1)%Q by (apply F1; lia). nra.
    + rewrite E. unfold edge, veq, vadd, vscale; cbn [cx cy cz]. repeat split; ring.
Qed.

(** ** Boxes with a prescribed cell size *)

Definition box_pos (lo d : coord) (h : Q) (c : off) : coord :=
  vadd (vadd (vadd lo (vscale (qsign (cx d) * h * inject_Z (ox c)) (Coord 1 0 0)))
             (vscale (qsign (cy d) * h * inject_Z (oy c)) (Coord 0 1 0)))
       (vscale (qsign (cz d) * h * inject_Z (oz c)) (Coord 0 0 1)).

Lemma hex_pat_gm d nu nv nw pos : 0 <= nu -> 0 <= nv -> 0 <= nw ->
  gm unit_dirs (hex_pat d) pos nu nv nw (nu + 1) (nv + 1) (nw + 1)
    (Mesh (fst (grid_nodes (fun i j k => pos (i, j, k)) nu nv nw)) t_empty (fst (grid_cells d nu nv nw))).
Proof.
  intros Hu Hv Hw. split.
  - apply hex_pat_check.
  - cbn [m_nodes]. destruct (grid_nodes_ok (fun i j k => pos (i, j, k)) nu nv nw) as [H _]. unfold node_list in H.
    rewrite (map_ext _ pos) in H; [exact H|]. intros [[i j] k]. reflexivity.
  - reflexivity.
  - cbn [m_elems]. destruct (grid_cells_ok d nu nv nw) as [H _].
    rewrite (flat_map_ext _ (fun c => map (stamp nu nv c) (hex_pat d))) in H; [exact H|]. intros c. apply hex_cell_stamp.
  - intros c p o Hc Hp Ho. assert (Hcube : in_cube o = true).
    { pose proof (hex_pat_check d) as CH. unfold pattern_check in CH. apply andb_true_iff in CH. destruct CH as [CH _].
      rewrite forallb_forall in CH. specialize (CH _ Hp). unfold elem_check in CH. apply andb_true_iff in CH.
      destruct CH as [CH _]. apply andb_true_iff in CH. destruct CH as [_ CH]. rewrite forallb_forall in CH. auto. }
    apply in_cube_iff in Hcube. unfold inbox, oadd in *; cbn [ox oy oz fst snd] in *. split; [lia|].
    now rewrite !Z.add_simpl_r.
Qed.

Lemma to_int_whole x h : (0 < h)%Q -> (0 <= x)%Q -> whole x h <= int_max -> to_int (Qabs x / h) = Ok (whole x h) /\ 0 <= whole x h.
Proof.
  intros Hh Hx Hm. assert (E : (Qabs x == x)%Q) by now apply Qabs_pos.
  assert (Hq : (0 <= x / h)%Q) by (apply Qle_shift_div_l; [assumption|lra]).
  assert (0 <= whole x h).
  { unfold whole. change 0 with (Qfloor 0). now apply Qfloor_resp_le. }
  split; [|assumption]. unfold to_int, qtrunc. replace (Qle_bool 0 (Qabs x / h)) with true.
  2: { symmetry. apply Qle_bool_iff. now rewrite E. }
  assert (F : Qfloor (Qabs x / h) = whole x h) by (unfold whole; apply Qfloor_comp; now rewrite E). rewrite F.
  replace (int_min <=? whole x h) with true by (symmetry; apply Z.leb_le; unfold int_min; lia).
  replace (whole x h <=? int_max) with true by (symmetry; now apply Z.leb_le). reflexivity.
Qed.

Lemma whole_bounds x h : (0 < h)%Q -> (h * inject_Z (whole x h) <= x /\ x < h * inject_Z (whole x h) + h)%Q.
Proof.
  intros Hh. unfold whole. pose proof (Qfloor_le (x / h)) as F1. pose proof (Qlt_floor (x / h)) as F2. rewrite inject_Z_plus in F2.
  change (inject_Z 1) with 1%Q in F2. assert (E : (x == h * (x / h))%Q) by (field; lra).
  split; [rewrite E at 2|rewrite E at 1]; nra.
Qed.


Lemma box_generated lo hi h d : boxed lo hi h ->
  let nu := whole (cx hi - cx lo) h in let nv := whole (cy hi - cy lo) h in let nw := whole (cz hi - cz lo) h in
  nu <= int_max -> nv <= int_max -> nw <= int_max ->
  exists m, generate_box lo hi h d = Ok m /\
    gm unit_dirs (hex_pat d) (box_pos lo (vsub hi lo) h) nu nv nw (nu + 1) (nv + 1) (nw + 1) m /\
    0 <= nu /\ 0 <= nv /\ 0 <= nw /\
    forall c, box_pos lo (vsub hi lo) h c =v= Coord (cx lo + h * inject_Z (ox c)) (cy lo + h * inject_Z (oy c)) (cz lo + h * inject_Z (oz c)).
Proof.
  intros (Hh & Hx & Hy & Hz) nu nv nw Mu Mv Mw. unfold generate_box. cbn [vsub cx cy cz].
  replace (Qeq_bool h 0) with false.
  2: { symmetry. apply not_true_iff_false. rewrite Qeq_bool_iff. lra. }
  destruct (to_int_whole (cx hi - cx lo) h Hh) as [-> Pu]; [lra|exact Mu|].
  destruct (to_int_whole (cy hi - cy lo) h Hh) as [-> Pv]; [lra|exact Mv|].
  destruct (to_int_whole (cz hi - cz lo) h Hh) as [-> Pw]; [lra|exact Mw|]. cbn [bind].
  eexists. split; [reflexivity|]. split; [|split; [exact Pu|split; [exact Pv|split; [exact Pw|]]]].
  - exact (hex_pat_gm d nu nv nw (box_pos lo (vsub hi lo) h) Pu Pv Pw).
  - intros c. unfold box_pos, qsign. cbn [vsub cx cy cz].
    replace (Qlt_bool 0 (cx hi - cx lo)) with true by (symmetry; apply Qlt_bool_iff; lra).
    replace (Qlt_bool 0 (cy hi - cy lo)) with true by (symmetry; apply Qlt_bool_iff; lra).
    replace (Qlt_bool 0 (cz hi - cz lo)) with true by (symmetry; apply Qlt_bool_iff; lra).
    unfold veq, vadd, vscale; cbn [cx cy cz]. repeat split; ring.
Qed.

Lemma box_ok lo hi h d : boxed lo hi h ->
  let nu := whole (cx hi - cx lo) h in let nv := whole (cy hi - cy lo) h in let nw := whole (cz hi - cz lo) h in
  nu <= int_max -> nv <= int_max -> nw <= int_max ->
  exists m, generate_box lo hi h d = Ok m /\ wf_mesh m /\ refs_ok m /\
    t_ids (m_nodes m) = zrange (Z.to_nat ((nu + 1) * (nv + 1) * (nw + 1))) /\
    t_ids (m_elems m) = zrange (Z.to_nat ((if d then 6 else 1) * (nu * nv * nw))) /\
    proper m (if d then ET_TETRAHEDRON else ET_HEXAHEDRON) /\
    (forall i j k, 0 <= i <= nu -> 0 <= j <= nv -> 0 <= k <= nw ->
      exists c, t_get (m_nodes m) (point_id nu nv i j k) = Ok c /\
        c =v= Coord (cx lo + h * inject_Z i) (cy lo + h * inject_Z j) (cz lo + h * inject_Z k)) /\
    (forall id, In id (t_ids (m_elems m)) ->
       (vol d (elem_coords m id) == - (h * h * h) / (if d then 6 else 1))%Q) /\
    (forall n c, t_get (m_nodes m) n = Ok c ->
       (cx lo <= cx c <= cx hi)%Q /\ (cy lo <= cy c <= cy hi)%Q /\ (cz lo <= cz c <= cz hi)%Q) /\
    (forall p, 1 <= nu -> 1 <= nv -> 1 <= nw ->
       (cx lo <= cx p <= cx hi - h)%Q -> (cy lo <= cy p <= cy hi - h)%Q -> (cz lo <= cz p <= cz hi - h)%Q ->
       exists id, In id (t_ids (m_elems m)) /\ in_hull (elem_coords m id) p).
Proof.
  intros B nu nv nw Mu Mv Mw. destruct (box_generated lo hi h d B Mu Mv Mw) as (m & E & G & Pu & Pv & Pw & Hpos).
  fold nu nv nw in G, Pu, Pv, Pw. exists m. split; [exact E|]. destruct B as (Hh & Hx & Hy & Hz).
  pose proof (gm_wf _ _ _ _ _ _ _ _ _ _ G) as W.
  split; [exact W|]. split; [apply (gm_refs _ _ _ _ _ _ _ _ _ _ G)|].
  split; [apply (gm_node_ids _ _ _ _ _ _ _ _ _ _ G); lia|].
  split. { rewrite <- zlen_hex_pat. apply (gm_elem_ids _ _ _ _ _ _ _ _ _ _ G); lia. }
  split. { apply (gm_proper _ _ _ _ _ _ _ _ _ _ G). intros p Hp. destruct d; cbn in Hp; repeat destruct Hp as [<-|Hp]; try contradiction; reflexivity. }
  assert (Hnode : forall i j k, 0 <= i <= nu -> 0 <= j <= nv -> 0 <= k <= nw ->
      exists c, t_get (m_nodes m) (point_id nu nv i j k) = Ok c /\
        c =v= Coord (cx lo + h * inject_Z i) (cy lo + h * inject_Z j) (cz lo + h * inject_Z k)).
  { intros i j k Hi Hj Hk. eexists. split.
    - pose proof (gm_node _ _ _ _ _ _ _ _ _ _ G (i, j, k)) as H. rewrite !Z.add_simpl_r in H. apply H.
      unfold inbox; cbn [ox oy oz fst snd]. lia.
    - apply Hpos. }
  split; [exact Hnode|].
  set (u := Coord (h * inject_Z nu) 0 0). set (v := Coord 0 (h * inject_Z nv) 0). set (w := Coord 0 0 (h * inject_Z nw)).
  assert (N0 : forall n, 1 <= n -> ~ (inject_Z n == 0)%Q) by (intros n H E'; unfold Qeq in E'; cbn in E'; lia).
  assert (Hpos' : 1 <= nu -> 1 <= nv -> 1 <= nw -> forall c, box_pos lo (vsub hi lo) h c =v= hex_pos lo u v w nu nv nw c).
  { intros Hu Hv Hw c. rewrite Hpos, hex_pos_eq by assumption. pose proof (N0 _ Hu). pose proof (N0 _ Hv). pose proof (N0 _ Hw).
    unfold u, v, w, at_fractions, frac, veq, vadd, vscale; cbn [cx cy cz]. repeat split; field; auto. }
  assert (Fill : 1 <= nu -> 1 <= nv -> 1 <= nw -> _) by (intros Hu Hv Hw; exact (hex_fill _ lo u v w nu nv nw d m Hu Hv Hw (Hpos' Hu Hv Hw) G)).
  split; [|split].
  - intros id Hid. destruct (wf_get _ _ (proj2 (proj2 W)) Hid) as (e & He).
    destruct (gm_elem _ _ _ _ _ _ _ _ _ _ G _ _ He) as (c & pp & Hc & Hpp & _). unfold inbox in Hc.
    assert (Hu : 1 <= nu) by lia. assert (Hv : 1 <= nv) by lia. assert (Hw : 1 <= nw) by lia.
    destruct (Fill Hu Hv Hw) as (V & _ & _). rewrite (V id Hid), corners_volume, !inject_Z_mult.
    pose proof (N0 _ Hu). pose proof (N0 _ Hv). pose proof (N0 _ Hw).
    unfold u, v, w, dot, cross; cbn [cx cy cz]. destruct d; [change (inject_Z 6) with 6%Q|change (inject_Z 1) with 1%Q]; field; auto.
  - intros n c Hn. destruct (numbered_get _ _ _ _ (gm_nodes _ _ _ _ _ _ _ _ _ _ G) Hn) as (k & _ & Hk).
    apply nth_error_In in Hk. apply in_map_iff in Hk. destruct Hk as ([[i j] k'] & <- & Hin). apply box_list_in in Hin.
    destruct (Hpos (i, j, k')) as (E1 & E2 & E3). cbn [cx cy cz ox oy oz fst snd] in *.
    rewrite E1, E2, E3.
    destruct (whole_bounds (cx hi - cx lo) h Hh) as [U1 _]. destruct (whole_bounds (cy hi - cy lo) h Hh) as [V1 _].
    destruct (whole_bounds (cz hi - cz lo) h Hh) as [W1 _]. fold nu in U1. fold nv in V1. fold nw in W1.
    assert (X : forall i n, 0 <= i <= n -> (0 <= inject_Z i /\ inject_Z i <= inject_Z n)%Q).
    { intros a b Hab. change 0%Q with (inject_Z 0). rewrite <- !Zle_Qle. lia. }
    destruct (X i nu) as [I1 I2]; [lia|]. destruct (X j nv) as [J1 J2]; [lia|]. destruct (X k' nw) as [K1 K2]; [lia|].
    split; [nra|]. split; nra.
  - intros p Hu Hv Hw Px Py Pz. destruct (Fill Hu Hv Hw) as (_ & _ & F). apply F. apply corners_hull.
    destruct (whole_bounds (cx hi - cx lo) h Hh) as [U1 U2]. destruct (whole_bounds (cy hi - cy lo) h Hh) as [V1 V2].
    destruct (whole_bounds (cz hi - cz lo) h Hh) as [W1 W2]. fold nu in U1, U2. fold nv in V1, V2. fold nw in W1, W2.
    assert (Q1 : forall n, 1 <= n -> (0 < h * inject_Z n)%Q).
    { intros n Hn. assert (1 <= inject_Z n)%Q by (change 1%Q with (inject_Z 1); rewrite <- Zle_Qle; lia). nra. }
    pose proof (Q1 _ Hu). pose proof (Q1 _ Hv). pose proof (Q1 _ Hw).
    exists ((cx p - cx lo) / (h * inject_Z nu))%Q, ((cy p - cy lo) / (h * inject_Z nv))%Q, ((cz p - cz lo) / (h * inject_Z nw))%Q.
    unfold unit01. split; [split; [apply Qle_shift_div_l|apply Qle_shift_div_r]; lra|].
    split; [split; [apply Qle_shift_div_l|apply Qle_shift_div_r]; lra|]. split; [split; [apply Qle_shift_div_l|apply Qle_shift_div_r]; lra|].
    unfold u, v, w, at_fractions, veq, vadd, vscale; cbn [cx cy cz]. pose proof (N0 _ Hu). pose proof (N0 _ Hv). pose proof (N0 _ Hw).
    repeat split; field; repeat split; auto; lra.
Qed.

Lemma box_conforming lo hi h d n tol : boxed lo hi h ->
  let nu := whole (cx hi - cx lo) h in let nv := whole (cy hi - cy lo) h in let nw := whole (cz hi - cz lo) h in
  1 <= nu <= int_max -> 1 <= nv <= int_max -> 1 <= nw <= int_max -> 1 <= n <= int_max -> (0 <= tol)%Q ->
  exists m m' nb bm, generate_box lo hi h d = Ok m /\ generateFaces n tol m = Ok (m', nb) /\
    conforming (m_faces m') (on_box_side nu nv nw) /\
    nb = (if d then 4 else 2) * (nu * nv + nv * nw + nu * nw) /\
    extractBoundary n tol m = Ok (bm, m') /\ closed_surface (polygons (m_elems bm)).
Proof.
  intros B nu nv nw [Hu Mu] [Hv Mv] [Hw Mw] Hn Htol. destruct (box_generated lo hi h d B Mu Mv Mw) as (m & E & G & Pu & Pv & Pw & Hpos).
  fold nu nv nw in G. destruct B as (Hh & Hx & Hy & Hz).
  set (u := Coord (h * inject_Z nu) 0 0). set (v := Coord 0 (h * inject_Z nv) 0). set (w := Coord 0 0 (h * inject_Z nw)).
  assert (N0 : forall n, 1 <= n -> ~ (inject_Z n == 0)%Q) by (intros k H E'; unfold Qeq in E'; cbn in E'; lia).
  destruct (hex_conform (box_pos lo (vsub hi lo) h) lo u v w nu nv nw d m n tol Hu Hv Hw) as (m' & nb & bm & H); try assumption.
  - intros ((H1 & _ & _) & _). unfold u, vzero in H1; cbn [cx] in H1.
    assert (1 <= inject_Z nu)%Q by (change 1%Q with (inject_Z 1); rewrite <- Zle_Qle; lia). nra.
  - intros c. rewrite Hpos, hex_pos_eq by assumption. pose proof (N0 _ Hu). pose proof (N0 _ Hv). pose proof (N0 _ Hw).
    unfold u, v, w, at_fractions, frac, veq, vadd, vscale; cbn [cx cy cz]. repeat split; field; auto.
  - exists m, m', nb, bm. tauto.
Qed.

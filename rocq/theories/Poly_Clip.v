(** Clipping a polygon by a plane. *)
From Coq Require Import QArith Qabs ZArith List Bool Lia Lqa Setoid.
From Verif Require Import Prelude Vec Seg_Model Seg_Spec Seg_Proofs Seg_Lists Face_Spec Grid_Spec Poly_Model Poly_Spec Poly_Proofs.
Import ListNotations.
Open Scope Q_scope.

Definition edge (a b : coord) : segment := Segment a b (vsub b a).

(** ** Clipping one edge *)
Inductive edge_view (a b : coord) (h : plane) : segment -> segment -> Prop :=
| ev_leave k s s' : dot (p_normal h) a <= p_d h -> p_d h <= dot (p_normal h) b -> dot (p_normal h) a < dot (p_normal h) b ->
    0 <= k <= 1 -> dot (p_normal h) (vadd a (vscale k (vsub b a))) == p_d h ->
    s_start s =v= a -> s_end s =v= vadd a (vscale k (vsub b a)) ->
    s_start s' =v= vadd a (vscale k (vsub b a)) -> s_end s' =v= b -> edge_view a b h s s'
| ev_enter k s s' : p_d h <= dot (p_normal h) a -> dot (p_normal h) b <= p_d h -> dot (p_normal h) b < dot (p_normal h) a ->
    0 <= k <= 1 -> dot (p_normal h) (vadd a (vscale k (vsub b a))) == p_d h ->
    s_start s =v= vadd a (vscale k (vsub b a)) -> s_end s =v= b ->
    s_start s' =v= a -> s_end s' =v= vadd a (vscale k (vsub b a)) -> edge_view a b h s s'
| ev_in s s' : dot (p_normal h) a < p_d h -> dot (p_normal h) b < p_d h ->
    s_start s =v= a -> s_end s =v= b -> s_start s' =v= a -> s_end s' =v= a -> edge_view a b h s s'
| ev_out s s' : p_d h < dot (p_normal h) a -> p_d h < dot (p_normal h) b ->
    s_start s =v= a -> s_end s =v= a -> s_start s' =v= a -> s_end s' =v= b -> edge_view a b h s s'
| ev_flat s s' : dot (p_normal h) a == p_d h -> dot (p_normal h) b == p_d h ->
    s_start s =v= a -> s_end s =v= a -> s_start s' =v= a -> s_end s' =v= a -> edge_view a b h s s'.

Lemma vadd_vsub a b : vadd a (vsub b a) =v= b. Proof. vring. Qed.
Lemma vscale_neg h a : dot (p_normal (plane_invert h)) a == - dot (p_normal h) a.
Proof. unfold plane_invert, dot. cbn [p_normal vscale cx cy cz]. ring. Qed.

Lemma Qabs_pos_iff x : Qlt_bool 0 (Qabs x) = true <-> ~ x == 0.
Proof.
  rewrite Qlt_bool_iff. split.
  - intros H E. rewrite E in H. cbn in H. lra.
  - intros H. destruct (Qlt_le_dec x 0).
    + rewrite Qabs_neg by lra. lra.
    + rewrite Qabs_pos by assumption. destruct (Qlt_le_dec 0 x); [assumption|]. exfalso. apply H. lra.
Qed.

Lemma edge_cases a b h : edge_view a b h (clip (edge a b) h 0) (clip (edge a b) (plane_invert h) 0).
Proof.
  assert (D : forall n, dot n (vsub b a) == dot n b - dot n a) by (intros; apply dot_vsub).
  pose proof (vscale_neg h (vsub b a)) as N1. pose proof (vscale_neg h a) as N2.
  unfold clip, edge. cbn [s_vec s_start].
  set (den' := dot (p_normal (plane_invert h)) (vsub b a)) in *. set (num' := dot (p_normal (plane_invert h)) a) in *.
  assert (Hd' : p_d (plane_invert h) == - p_d h) by (unfold plane_invert; cbn [p_d]; ring).
  set (d' := p_d (plane_invert h)) in *.
  pose proof (D (p_normal h)) as Dn. set (den := dot (p_normal h) (vsub b a)) in *.
  destruct (Qeq_dec den 0) as [E|E].
  - assert (F : Qlt_bool 0 (Qabs den) = false).
    { destruct (Qlt_bool 0 (Qabs den)) eqn:F; [|reflexivity]. apply Qabs_pos_iff in F. contradiction. }
    assert (F' : Qlt_bool 0 (Qabs den') = false).
    { destruct (Qlt_bool 0 (Qabs den')) eqn:F'; [|reflexivity]. apply Qabs_pos_iff in F'. exfalso. apply F'. rewrite N1, E. reflexivity. }
    rewrite F, F'. cbn [fst snd].
    destruct (Qlt_bool (dot (p_normal h) a) (p_d h)) eqn:G; destruct (Qlt_bool num' d') eqn:G';
      rewrite ?Qlt_bool_iff, ?Qlt_bool_false in *; cbn [fst snd].
    + lra.
    + apply ev_in; cbn [s_start s_end set_end set_start]; try reflexivity; [lra|lra|apply vadd_vsub].
    + apply ev_out; cbn [s_start s_end set_end set_start]; try reflexivity; [lra|lra|apply vadd_vsub].
    + apply ev_flat; cbn [s_start s_end set_end set_start]; try reflexivity; lra.
  - assert (F : Qlt_bool 0 (Qabs den) = true) by (apply Qabs_pos_iff; exact E).
    assert (F' : Qlt_bool 0 (Qabs den') = true) by (apply Qabs_pos_iff; rewrite N1; lra).
    rewrite F, F'. cbn zeta.
    set (k := (p_d h - dot (p_normal h) a) / den). set (k' := (d' - num') / den').
    assert (Hk : k' == k). { unfold k', k. rewrite Hd', N1, N2. field. exact E. }
    assert (Hkd : k * den == p_d h - dot (p_normal h) a) by (unfold k; field; exact E).
    assert (Hb : (Qle_bool 0 k' && Qle_bool k' 1) = (Qle_bool 0 k && Qle_bool k 1)) by now rewrite Hk.
    rewrite Hb. destruct (Qle_bool 0 k && Qle_bool k 1) eqn:G.
    + apply andb_true_iff in G as [G1 G2]. apply Qle_bool_iff in G1, G2.
      assert (Hon : dot (p_normal h) (vadd a (vscale k (vsub b a))) == p_d h).
      { rewrite dot_vadd, dot_vscale. fold den. lra. }
      destruct (Qlt_bool 0 den) eqn:S; destruct (Qlt_bool 0 den') eqn:S'; rewrite ?Qlt_bool_iff, ?Qlt_bool_false in *; cbn [fst snd].
      * lra.
      * apply (ev_leave a b h k); cbn [s_start s_end set_end set_start]; try reflexivity; try apply vadd_vsub; auto; try rewrite Hk; try reflexivity; try nra; split; assumption.
      * assert (den < 0) by lra.
        apply (ev_enter a b h k); cbn [s_start s_end set_end set_start]; try reflexivity; try apply vadd_vsub; auto; try rewrite Hk; try reflexivity; try nra; split; assumption.
      * exfalso. apply E. lra.
    + assert (G' : k < 0 \/ 1 < k) by (apply andb_false_iff in G as [G|G]; apply Qle_bool_false in G; auto).
      destruct (Qlt_bool (dot (p_normal h) a) (p_d h)) eqn:S; destruct (Qlt_bool num' d') eqn:S';
        rewrite ?Qlt_bool_iff, ?Qlt_bool_false in *; cbn [fst snd].
      * lra.
      * apply ev_in; cbn [s_start s_end set_end set_start]; try reflexivity; try apply vadd_vsub; try lra.
        destruct (Qlt_le_dec den 0); [lra|]. assert (0 < den) by lra. destruct G'; nra.
      * apply ev_out; cbn [s_start s_end set_end set_start]; try reflexivity; try apply vadd_vsub; try lra.
        destruct (Qlt_le_dec den 0); [destruct G'; nra|lra].
      * assert (k * den == 0) by lra. assert (k == 0); [|lra].
        apply (Qmult_inj_r _ _ den E). lra.
Qed.

(** ** Where a polygon's vertex is taken over *)
Definition on_plane (h : plane) (p : coord) : Prop := dot (p_normal h) p == p_d h.

Definition stands (h : plane) (v p : coord) : Prop :=
  (dot (p_normal h) v <= p_d h /\ p =v= v) \/ (p_d h <= dot (p_normal h) v /\ on_plane h p).

Definition linked (h : plane) (p q : coord) : Prop := p =v= q \/ (on_plane h p /\ on_plane h q).

Lemma stands_linked h v p q : stands h v p -> stands h v q -> linked h p q.
Proof.
  unfold linked, on_plane. intros [(H1 & H2)|(H1 & H2)] [(H3 & H4)|(H3 & H4)]; unfold on_plane in *.
  - left. now rewrite H2, H4.
  - right. rewrite H2. split; [lra|exact H4].
  - right. rewrite H4. split; [exact H2|lra].
  - right. auto.
Qed.

Lemma norm2_zero v : norm2 v <= 0 -> v =v= vzero.
Proof.
  unfold norm2, dot. intros H.
  pose proof (sq_nonneg (cx v)). pose proof (sq_nonneg (cy v)). pose proof (sq_nonneg (cz v)).
  assert (Z : forall x, x * x <= 0 -> x == 0).
  { intros x Hx. destruct (Qlt_le_dec x 0); [nra|]. destruct (Qlt_le_dec 0 x); nra. }
  repeat split; cbn [vzero cx cy cz]; apply Z; lra.
Qed.

Lemma clip_vec s h tol : s_vec (clip s h tol) =v= vsub (s_end (clip s h tol)) (s_start (clip s h tol)).
Proof. unfold clip. cbn [set_end s_vec s_end s_start]. reflexivity. Qed.

Lemma line_long_false s : s_vec s =v= vsub (s_end s) (s_start s) -> (line_long s = false <-> s_end s =v= s_start s).
Proof.
  intros E. unfold line_long. rewrite negb_false_iff, Qle_bool_iff. split.
  - intros H. apply norm2_zero in H. rewrite E in H. destruct H as (H1 & H2 & H3). cbn [vsub vzero cx cy cz] in *. repeat split; lra.
  - intros H. rewrite E, H. unfold norm2, dot. cbn [vsub cx cy cz]. assert (Z : forall x, (x - x) * (x - x) == 0) by (intros; ring). rewrite !Z. lra.
Qed.

Lemma stands_self h v : dot (p_normal h) v <= p_d h -> forall p, p =v= v -> stands h v p.
Proof. intros H p E. left. auto. Qed.
Lemma stands_on h v : p_d h <= dot (p_normal h) v -> forall p, on_plane h p -> stands h v p.
Proof. intros H p E. right. auto. Qed.

Lemma edge_kept a b h : line_long (clip (edge a b) h 0) = true ->
  stands h a (s_start (clip (edge a b) h 0)) /\ stands h b (s_end (clip (edge a b) h 0)).
Proof.
  intros L. pose proof (line_long_false _ (clip_vec (edge a b) h 0)) as Z.
  assert (NZ : ~ s_end (clip (edge a b) h 0) =v= s_start (clip (edge a b) h 0)) by (intros E; apply Z in E; congruence).
  clear Z L. destruct (edge_cases a b h) as [k s s' H1 H2 H3 H4 H5 E1 E2 E3 E4|k s s' H1 H2 H3 H4 H5 E1 E2 E3 E4|s s' H1 H2 E1 E2 E3 E4|s s' H1 H2 E1 E2 E3 E4|s s' H1 H2 E1 E2 E3 E4].
  - split; [apply stands_self; assumption|]. apply stands_on; [assumption|]. unfold on_plane. now rewrite E2.
  - split; [|apply stands_self; assumption]. apply stands_on; [assumption|]. unfold on_plane. now rewrite E1.
  - split; apply stands_self; auto; lra.
  - exfalso. apply NZ. now rewrite E1, E2.
  - exfalso. apply NZ. now rewrite E1, E2.
Qed.

Lemma stands_here h v p : stands h v p -> on_plane h v -> on_plane h p.
Proof. unfold on_plane. intros [(H1 & H2)|(H1 & H2)] H; [now rewrite H2|exact H2]. Qed.
Lemma stands_out h v p : stands h v p -> p_d h < dot (p_normal h) v -> on_plane h p.
Proof. intros [(H1 & H2)|(H1 & H2)] H; [lra|exact H2]. Qed.

Lemma edge_lost a b h p : line_long (clip (edge a b) h 0) = false -> stands h a p -> stands h b p.
Proof.
  intros L Hp. apply (line_long_false _ (clip_vec (edge a b) h 0)) in L.
  destruct (edge_cases a b h) as [k s s' H1 H2 H3 H4 H5 E1 E2 E3 E4|k s s' H1 H2 H3 H4 H5 E1 E2 E3 E4|s s' H1 H2 E1 E2 E3 E4|s s' H1 H2 E1 E2 E3 E4|s s' H1 H2 E1 E2 E3 E4].
  - right. split; [assumption|]. apply (stands_here h a p Hp). unfold on_plane. rewrite <- H5.
    rewrite <- E2, L. now rewrite E1.
  - right. assert (Hb : dot (p_normal h) b == p_d h). { rewrite <- H5, <- E1, <- L. now rewrite E2. }
    split; [lra|]. apply (stands_out h a p Hp). lra.
  - assert (E : b =v= a) by (rewrite <- E1, <- E2; exact L).
    destruct Hp as [(P1 & P2)|(P1 & P2)]; [|lra]. left. split; [lra|]. now rewrite E.
  - right. split; [lra|]. apply (stands_out h a p Hp). lra.
  - right. split; [lra|]. apply (stands_here h a p Hp H1).
Qed.

(** ** The pieces of a polyline *)
Fixpoint pieces (h : plane) (a : coord) (l : list coord) : list segment :=
  match l with
  | [] => []
  | b :: l' => let s := clip (edge a b) h 0 in if line_long s then s :: pieces h b l' else pieces h b l'
  end.

Fixpoint edges (a : coord) (l : list coord) : list (coord * coord) :=
  match l with [] => [] | b :: l' => (a, b) :: edges b l' end.

Lemma edges_vtx a l : edges a l = map (fun i => (vtx (a :: l) i, vtx (a :: l) (i + 1))) (seq 0 (length l)).
Proof.
  enough (H : forall i, (i < length l)%nat -> nth i (edges a l) (a, a) = (nth i (a :: l) vzero, nth (i + 1) (a :: l) vzero)).
  { assert (L : length (edges a l) = length l). { clear H. revert a. induction l as [|b l IH]; intros a; cbn; auto. }
    apply (nth_ext _ _ (a, a) (a, a)); [now rewrite map_length, seq_length|].
    intros i Hi. rewrite L in Hi. rewrite H by exact Hi.
    rewrite (nth_indep (map _ _) _ (vtx (a :: l) 0, vtx (a :: l) (0 + 1))) by (rewrite map_length, seq_length; exact Hi).
    rewrite (map_nth (fun i => (vtx (a :: l) i, vtx (a :: l) (i + 1))) (seq 0 (length l)) 0%nat i), seq_nth by exact Hi.
    unfold vtx. cbn [length Nat.add]. rewrite !Nat.mod_small by lia. reflexivity. }
  enough (H : forall a' i, (i < length l)%nat -> nth i (edges a l) (a', a') = (nth i (a :: l) vzero, nth (i + 1) (a :: l) vzero)) by (intros; now apply H).
  revert a. induction l as [|b l IH]; intros a a' i Hi; cbn [length] in Hi; [lia|].
  destruct i as [|i]; [reflexivity|]. cbn [edges nth]. rewrite IH by lia. reflexivity.
Qed.

Lemma pieces_edges h a l : pieces h a l = filter line_long (map (fun e => clip (edge (fst e) (snd e)) h 0) (edges a l)).
Proof.
  revert a. induction l as [|b l IH]; intros a; [reflexivity|]. cbn [pieces edges map filter fst snd]. rewrite IH. reflexivity.
Qed.

Lemma pl_clip_pieces h a l : pl_clip (a :: l) h 0 = pieces h a l.
Proof.
  rewrite pieces_edges, edges_vtx, map_map. unfold pl_clip. cbn [length]. rewrite Nat.sub_succ, Nat.sub_0_r. reflexivity.
Qed.

Definition ends (ls : list segment) : list coord := flat_map (fun s => [s_start s; s_end s]) ls.

Lemma raw_ends ls : Forall (fun s => line_long s = true) ls ->
  flat_map (fun s => if line_long s then [s_start s; s_end s] else []) ls = ends ls.
Proof. unfold ends. induction 1 as [|s ls Hs Hl IH]; [reflexivity|]. cbn [flat_map]. now rewrite Hs, IH. Qed.

Lemma pieces_long h a l : Forall (fun s => line_long s = true) (pieces h a l).
Proof.
  revert a. induction l as [|b l IH]; intros a; cbn [pieces]; [constructor|].
  destruct (line_long _) eqn:E; [constructor|]; auto.
Qed.

(** ** Removing repeated points *)
Lemma fuse_from_zero l : forall prev, Forall2 veq (fuse_from 0 prev l) l.
Proof.
  induction l as [|v l IH]; intros prev; cbn [fuse_from]; constructor; [|apply IH].
  destruct (norm_le (vsub v prev) 0) eqn:E; [|reflexivity].
  unfold norm_le in E. apply andb_true_iff in E as [_ E]. apply Qle_bool_iff in E.
  assert (Z : norm2 (vsub v prev) <= 0) by lra. apply norm2_zero in Z. destruct Z as (Z1 & Z2 & Z3). cbn [vsub vzero cx cy cz] in *.
  repeat split; lra.
Qed.

Lemma fuse_zero l : Forall2 veq (fuse 0 l) l.
Proof. destruct l as [|v l]; cbn [fuse]; constructor; [reflexivity|apply fuse_from_zero]. Qed.

Lemma pvec_unique l : forall last y, pvec last (unique_from last l ++ [y]) =v= pvec last (l ++ [y]).
Proof.
  induction l as [|v l IH]; intros last y; cbn [unique_from app]; [reflexivity|].
  destruct (coord_eqb last v) eqn:E.
  - apply coord_eqb_iff in E. rewrite IH. cbn [pvec].
    assert (Z : cross last v =v= vzero) by (rewrite E; apply cross_self). rewrite Z, vadd_0_l.
    apply pvec_veq; [apply Forall2_rel_refl; reflexivity|exact E].
  - cbn [app pvec]. rewrite IH. reflexivity.
Qed.

Lemma area_unique l : area_vector (vl_remove_duplicates l) =v= area_vector l.
Proof. destruct l as [|x r]; [reflexivity|]. unfold vl_remove_duplicates. rewrite !area_pvec, pvec_unique. reflexivity. Qed.

Lemma pg_clip_area h a l : area_vector (pg_clip (a :: l) h 0) =v= area_vector (ends (pieces h a l)).
Proof.
  unfold pg_clip, pl_set. rewrite area_close, area_unique, pl_clip_pieces, raw_ends by apply pieces_long.
  apply area_veq, fuse_zero.
Qed.

(** ** Area of the clipped polygon *)
Definition arm (o p q : coord) : coord := cross (vsub p o) (vsub q o).
Global Instance arm_Proper o : Proper (veq ==> veq ==> veq) (arm o).
Proof. intros p p' Hp q q' Hq. unfold arm. now rewrite Hp, Hq. Qed.

(** Path sums seen from o. *)
Fixpoint avec (o x : coord) (l : list coord) : coord :=
  match l with [] => vzero | y :: l' => vadd (arm o x y) (avec o y l') end.

Lemma avec_pvec o l : forall x, avec o x l = pvec (vsub x o) (map (fun p => vsub p o) l).
Proof. induction l as [|y l IH]; intros x; cbn [avec map pvec]; [reflexivity|]. now rewrite IH. Qed.

Lemma avec_app o x l y k : avec o x (l ++ y :: k) =v= vadd (avec o x (l ++ [y])) (avec o y k).
Proof. rewrite !avec_pvec, !map_app. apply pvec_app. Qed.

Lemma area_avec o l : area_vector l =v= match l with [] => vzero | x :: r => vscale (1#2) (avec o x (r ++ [x])) end.
Proof.
  destruct l as [|x r]; [unfold area_vector; cbn [cycle map fold_right]; vring|].
  rewrite <- (area_shift o (x :: r)). cbn [map]. rewrite area_pvec, avec_pvec, map_app. reflexivity.
Qed.

Definition arms (o : coord) (ls : list segment) : coord := vsum (map (fun s => arm o (s_start s) (s_end s)) ls).

Lemma last_cons {A} (x d : A) l : last (x :: l) d = last l x.
Proof. revert x d. induction l as [|y l IH]; intros x d; [reflexivity|]. change (last (x :: y :: l) d) with (last (y :: l) d). now rewrite !IH. Qed.

Lemma ends_cons s ls : ends (s :: ls) = s_start s :: s_end s :: ends ls. Proof. reflexivity. Qed.

Lemma pieces_cons h a b l : pieces h a (b :: l) =
  if line_long (clip (edge a b) h 0) then clip (edge a b) h 0 :: pieces h b l else pieces h b l.
Proof. reflexivity. Qed.

Lemma arms_cons o s ls : arms o (s :: ls) =v= vadd (arm o (s_start s) (s_end s)) (arms o ls). Proof. reflexivity. Qed.

Section Chain.
Variable h : plane.
Variable o : coord.
Variable good : coord -> Prop.
Hypothesis flat : forall p q, good p -> good q -> on_plane h p -> on_plane h q -> arm o p q =v= vzero.

Lemma arm_linked p q : good p -> good q -> linked h p q -> arm o p q =v= vzero.
Proof. intros Hp Hq [E|(H1 & H2)]; [|auto]. rewrite E. unfold arm. apply cross_self. Qed.

Lemma walk l : forall a p, stands h a p -> good p -> (forall v, In v (ends (pieces h a l)) -> good v) ->
  avec o p (ends (pieces h a l)) =v= arms o (pieces h a l) /\ stands h (last l a) (last (ends (pieces h a l)) p).
Proof.
  induction l as [|b l IH]; intros a p Hp Gp G.
  - cbn [pieces ends flat_map avec last]. split; [reflexivity|exact Hp].
  - rewrite pieces_cons in *. rewrite last_cons. destruct (line_long (clip (edge a b) h 0)) eqn:E.
    + destruct (edge_kept a b h E) as [K1 K2]. clear E. generalize dependent (clip (edge a b) h 0). intros s G K1 K2.
      rewrite ends_cons in *.
      assert (Gs : good (s_start s)) by (apply G, in_eq). assert (Ge : good (s_end s)) by (apply G; right; apply in_eq).
      destruct (IH b (s_end s) K2 Ge) as [I1 I2]. { intros v Hv. apply G. right. right. exact Hv. }
      cbn [avec]. rewrite (arm_linked p (s_start s) Gp Gs) by (eapply stands_linked; eassumption). rewrite vadd_0_l, I1, arms_cons.
      split; [reflexivity|]. rewrite !last_cons. exact I2.
    + apply IH; auto. eapply edge_lost; eassumption.
Qed.

Lemma arrive l : forall a, ends (pieces h a l) <> [] -> forall d, (forall v, In v (ends (pieces h a l)) -> good v) ->
  stands h (last l a) (last (ends (pieces h a l)) d).
Proof.
  induction l as [|b l IH]; intros a Hne d G; [now contradiction Hne|].
  rewrite pieces_cons in *. rewrite last_cons. destruct (line_long (clip (edge a b) h 0)) eqn:E; [|now apply IH].
  destruct (edge_kept a b h E) as [K1 K2]. clear E Hne. generalize dependent (clip (edge a b) h 0). intros s G K1 K2.
  rewrite ends_cons in *.
  destruct (walk l b (s_end s) K2 (G _ (or_intror (in_eq _ _)))) as [_ I2]. { intros v Hv. apply G. right. right. exact Hv. }
  rewrite !last_cons. exact I2.
Qed.

(** The doubled vector area of the clipped polygon, seen from o. *)
Lemma loop_area a l : last l a =v= a -> (forall v, In v (ends (pieces h a l)) -> good v) ->
  area_vector (ends (pieces h a l)) =v= vscale (1#2) (arms o (pieces h a l)).
Proof.
  intros Hc G. rewrite (area_avec o). destruct (ends (pieces h a l)) as [|x r] eqn:E.
  - destruct (pieces h a l) as [|s ls]; [|discriminate E]. cbn. vring.
  - assert (Hst : stands h a (last (x :: r) vzero)).
    { assert (S : stands h (last l a) (last (x :: r) vzero)). { rewrite <- E. apply arrive; rewrite E; [discriminate|exact G]. }
      destruct S as [(S1 & S2)|(S1 & S2)]; [left|right]; rewrite ?Hc in *; auto. }
    assert (Gl : good (last (x :: r) vzero)).
    { apply G. rewrite (app_removelast_last vzero (l := x :: r)) at 2 by discriminate. apply in_app_iff. right. apply in_eq. }
    destruct (walk l a _ Hst Gl) as [W _]; [rewrite E; exact G|]. rewrite E in W. rewrite <- W. apply vscale_Proper; [reflexivity|].
    (* the closed loop starting one step earlier *)
    cbn [avec]. rewrite vadd_comm. clear.
    assert (H : forall k u y, avec o u (k ++ [y]) =v= vadd (avec o u k) (arm o (last (u :: k) vzero) y)).
    { induction k as [|z k IH]; intros u y; cbn [app avec].
      - cbn [last]. rewrite vadd_0_l. apply vadd_0_r.
      - rewrite IH, vadd_assoc. reflexivity. }
    rewrite H. reflexivity.
Qed.
End Chain.

(** ** The two sides together *)
Lemma arms_all o h a l : arms o (pieces h a l) =v=
  vsum (map (fun e => arm o (s_start (clip (edge (fst e) (snd e)) h 0)) (s_end (clip (edge (fst e) (snd e)) h 0))) (edges a l)).
Proof.
  revert a. induction l as [|b l IH]; intros a; [reflexivity|]. rewrite pieces_cons. cbn [edges map fst snd vsum fold_right].
  fold (vsum (map (fun e => arm o (s_start (clip (edge (fst e) (snd e)) h 0)) (s_end (clip (edge (fst e) (snd e)) h 0))) (edges b l))).
  destruct (line_long (clip (edge a b) h 0)) eqn:E.
  - rewrite arms_cons, IH. reflexivity.
  - rewrite IH. apply (line_long_false _ (clip_vec (edge a b) h 0)) in E. rewrite E. unfold arm at 2. rewrite cross_self, vadd_0_l. reflexivity.
Qed.

Lemma vsum_add {A} (f g : A -> coord) l : vadd (vsum (map f l)) (vsum (map g l)) =v= vsum (map (fun x => vadd (f x) (g x)) l).
Proof.
  unfold vsum. induction l as [|x l IH]; cbn [map fold_right]; [apply vadd_0_l|]. rewrite <- IH. vring.
Qed.

Lemma vsum_ext {A} (f g : A -> coord) l : (forall x, In x l -> f x =v= g x) -> vsum (map f l) =v= vsum (map g l).
Proof.
  unfold vsum. induction l as [|x l IH]; intros H; cbn [map fold_right]; [reflexivity|]. rewrite (H x) by apply in_eq.
  rewrite IH; [reflexivity|]. intros y Hy. apply H. now right.
Qed.

Lemma arm_split o a v k : vadd (arm o a (vadd a (vscale k v))) (arm o (vadd a (vscale k v)) (vadd a v)) =v= arm o a (vadd a v).
Proof. unfold arm. vring. Qed.

Lemma arm_edge o a b h : (on_plane h a -> on_plane h b -> arm o a b =v= vzero) ->
  vadd (arm o (s_start (clip (edge a b) h 0)) (s_end (clip (edge a b) h 0)))
       (arm o (s_start (clip (edge a b) (plane_invert h) 0)) (s_end (clip (edge a b) (plane_invert h) 0))) =v= arm o a b.
Proof.
  intros Hf. pose proof (arm_split o a (vsub b a)) as S.
  assert (Sf : forall k, vadd (arm o a (vadd a (vscale k (vsub b a)))) (arm o (vadd a (vscale k (vsub b a))) b) =v= arm o a b).
  { intros k. specialize (S k). rewrite vadd_vsub in S. exact S. }
  assert (Zr : forall p, arm o p p =v= vzero) by (intros; apply cross_self).
  destruct (edge_cases a b h) as [k s s' H1 H2 H3 H4 H5 E1 E2 E3 E4|k s s' H1 H2 H3 H4 H5 E1 E2 E3 E4|s s' H1 H2 E1 E2 E3 E4|s s' H1 H2 E1 E2 E3 E4|s s' H1 H2 E1 E2 E3 E4];
    rewrite E1, E2, E3, E4.
  - apply Sf.
  - rewrite vadd_comm. apply Sf.
  - rewrite Zr. apply vadd_0_r.
  - rewrite Zr. apply vadd_0_l.
  - rewrite Zr, vadd_0_r. symmetry. apply Hf; assumption.
Qed.

Lemma avec_edges o l : forall a, avec o a l =v= vsum (map (fun e => arm o (fst e) (snd e)) (edges a l)).
Proof. induction l as [|b l IH]; intros a; cbn [avec edges map vsum fold_right]; [reflexivity|]. rewrite IH. reflexivity. Qed.

Lemma edges_in a l u v : In (u, v) (edges a l) -> In u (a :: l) /\ In v (a :: l).
Proof.
  revert a. induction l as [|b l IH]; intros a H; cbn [edges] in H; [easy|].
  destruct H as [H|H]; [inversion H; subst; cbn; auto|]. apply IH in H as [H1 H2]. split; now right.
Qed.

(** Every end point of a piece lies on an edge, on the inner side. *)
Lemma piece_points h a l p : In p (ends (pieces h a l)) ->
  exists u v k, In (u, v) (edges a l) /\ 0 <= k <= 1 /\ p =v= vadd u (vscale k (vsub v u)) /\ dot (p_normal h) p <= p_d h.
Proof.
  revert a. induction l as [|b l IH]; intros a H; [easy|]. rewrite pieces_cons in H.
  assert (Hrec : In p (ends (pieces h b l)) -> exists u v k, In (u, v) (edges a (b :: l)) /\ 0 <= k <= 1 /\ p =v= vadd u (vscale k (vsub v u)) /\ dot (p_normal h) p <= p_d h).
  { intros Hp. destruct (IH b Hp) as (u & v & k & I & R). exists u, v, k. split; [right; exact I|exact R]. }
  destruct (line_long (clip (edge a b) h 0)) eqn:E; [|auto].
  assert (NZ : ~ s_end (clip (edge a b) h 0) =v= s_start (clip (edge a b) h 0)).
  { intros Z. apply (line_long_false _ (clip_vec (edge a b) h 0)) in Z. congruence. }
  rewrite ends_cons in H.
  assert (Z0 : forall q, q =v= a -> q =v= vadd a (vscale 0 (vsub b a))) by (intros q ->; vring).
  assert (Z1 : forall q, q =v= b -> q =v= vadd a (vscale 1 (vsub b a))) by (intros q ->; vring).
  assert (B0 : 0 <= 0 <= 1) by (split; lra). assert (B1 : 0 <= 1 <= 1) by (split; lra).
  destruct H as [H|[H|H]]; [| |auto]; subst p;
  destruct (edge_cases a b h) as [k s s' H1 H2 H3 H4 H5 E1 E2 E3 E4|k s s' H1 H2 H3 H4 H5 E1 E2 E3 E4|s s' H1 H2 E1 E2 E3 E4|s s' H1 H2 E1 E2 E3 E4|s s' H1 H2 E1 E2 E3 E4];
    try (exfalso; apply NZ; now rewrite E1, E2).
  - exists a, b, 0. split; [apply in_eq|]. split; [exact B0|]. split; [apply Z0, E1|]. now rewrite E1.
  - exists a, b, k. split; [apply in_eq|]. split; [exact H4|]. split; [exact E1|]. rewrite E1. lra.
  - exists a, b, 0. split; [apply in_eq|]. split; [exact B0|]. split; [apply Z0, E1|]. rewrite E1. lra.
  - exists a, b, k. split; [apply in_eq|]. split; [exact H4|]. split; [exact E2|]. rewrite E2. lra.
  - exists a, b, 1. split; [apply in_eq|]. split; [exact B1|]. split; [apply Z1, E2|]. rewrite E2. lra.
  - exists a, b, 1. split; [apply in_eq|]. split; [exact B1|]. split; [apply Z1, E2|]. rewrite E2. lra.
Qed.

(** The plane of the polygon meets another plane in a line. *)
Lemma two_planes n c h o p q v1 : ~ n =v= vzero -> dot n o == c -> dot n p == c -> dot n q == c -> dot n v1 == c ->
  on_plane h o -> on_plane h p -> on_plane h q -> ~ on_plane h v1 -> arm o p q =v= vzero.
Proof.
  unfold on_plane. intros Hn No Np Nq Nv Ho Hp Hq Hv. unfold arm. set (w := cross (vsub p o) (vsub q o)).
  assert (P1 : cross n w =v= vzero) by (apply cross_perp; unfold perp; rewrite dot_vsub; lra).
  assert (P2 : cross (p_normal h) w =v= vzero) by (apply cross_perp; unfold perp; rewrite dot_vsub; lra).
  destruct (coord_eqb w vzero) eqn:E; [now apply coord_eqb_iff|]. exfalso.
  assert (Hw : ~ w =v= vzero) by (intros Z; apply coord_eqb_iff in Z; congruence).
  assert (P3 : cross n (p_normal h) =v= vzero).
  { apply (parallel_trans w); auto.
    - rewrite cross_anti, P1. vring.
    - rewrite cross_anti, P2. vring. }
  pose proof (parallel_ratio (p_normal h) n (drop_axis n) P3 (drop_axis_nonzero n Hn)) as R.
  set (r := comp (drop_axis n) (p_normal h) / comp (drop_axis n) n) in R.
  apply Hv. rewrite <- Ho. rewrite R. rewrite !(dot_comm (vscale r n)), !dot_vscale, !(dot_comm _ n), Nv, No. reflexivity.
Qed.

Lemma dot_between n c u v k : dot n u == c -> dot n v == c -> dot n (vadd u (vscale k (vsub v u))) == c.
Proof. intros Hu Hv. rewrite dot_vadd, dot_vscale, dot_vsub, Hu, Hv. ring. Qed.

Lemma on_invert h p : on_plane (plane_invert h) p <-> on_plane h p.
Proof. unfold on_plane. rewrite vscale_neg. unfold plane_invert. cbn [p_d]. split; lra. Qed.

Lemma clip_areas a l h : last l a =v= a -> planar (a :: l) -> (exists v, In v (a :: l) /\ ~ on_plane h v) ->
  vadd (area_vector (pg_clip (a :: l) h 0)) (area_vector (pg_clip (a :: l) (plane_invert h) 0)) =v= area_vector (a :: l).
Proof.
  intros Hc (n & c & Hn & Hp) (v1 & I1 & O1).
  set (good := fun v => dot n v == c).
  assert (G : forall h' v, In v (ends (pieces h' a l)) -> good v).
  { intros h' v Hv. apply piece_points in Hv as (u & w & k & Hi & _ & E & _). apply edges_in in Hi as [Hu Hw].
    unfold good. rewrite E. apply dot_between; apply Hp; assumption. }
  (* a point of view on both planes, if there is one *)
  set (all := (a :: l) ++ ends (pieces h a l) ++ ends (pieces (plane_invert h) a l)).
  assert (Gall : forall v, In v all -> good v).
  { intros v Hv. unfold all in Hv. rewrite !in_app_iff in Hv. destruct Hv as [Hv|[Hv|Hv]]; [now apply Hp|now apply (G h)|now apply (G (plane_invert h))]. }
  assert (Hview : exists o, forall p q, In p all -> In q all -> on_plane h p -> on_plane h q -> arm o p q =v= vzero).
  { destruct (existsb (fun v => Qeq_bool (dot (p_normal h) v) (p_d h)) all) eqn:E.
    - apply existsb_exists in E as (o & Ho & E). apply Qeq_bool_iff in E. exists o. intros p q Ip Iq Op Oq.
      apply (two_planes n c h o p q v1); auto; try (apply Gall; assumption).
    - exists vzero. intros p q Ip Iq Op Oq. exfalso.
      assert (T : existsb (fun v => Qeq_bool (dot (p_normal h) v) (p_d h)) all = true).
      { apply existsb_exists. exists p. split; [exact Ip|]. apply Qeq_bool_iff. exact Op. }
      congruence. }
  destruct Hview as (o & Ho).
  rewrite !pg_clip_area.
  rewrite (loop_area h o (fun v => In v all)); [| |exact Hc|].
  2:{ intros p q Ip Iq Op Oq. now apply Ho. }
  2:{ intros v Hv. unfold all. rewrite !in_app_iff. auto. }
  rewrite (loop_area (plane_invert h) o (fun v => In v all)); [| |exact Hc|].
  2:{ intros p q Ip Iq Op Oq. exact (Ho p q Ip Iq (proj1 (on_invert h p) Op) (proj1 (on_invert h q) Oq)). }
  2:{ intros v Hv. unfold all. rewrite !in_app_iff. auto. }
  rewrite !arms_all.
  set (f := fun e => arm o (s_start (clip (edge (fst e) (snd e)) h 0)) (s_end (clip (edge (fst e) (snd e)) h 0))).
  set (g := fun e => arm o (s_start (clip (edge (fst e) (snd e)) (plane_invert h) 0)) (s_end (clip (edge (fst e) (snd e)) (plane_invert h) 0))).
  transitivity (vscale (1#2) (vadd (vsum (map f (edges a l))) (vsum (map g (edges a l))))); [vring|].
  rewrite vsum_add.
  rewrite (vsum_ext _ (fun e => arm o (fst e) (snd e))).
  2:{ intros [u w] Hi. unfold f, g. cbn [fst snd]. apply arm_edge. intros O1' O2'.
      apply edges_in in Hi as [Hu Hw]. apply Ho; auto; unfold all; apply in_app_iff; auto. }
  rewrite <- avec_edges.
  (* the polygon is closed already *)
  rewrite (area_avec o (a :: l)). apply vscale_Proper; [reflexivity|].
  assert (H : forall r x y, avec o x (r ++ [y]) =v= vadd (avec o x r) (arm o (last r x) y)).
  { induction r as [|z r IH]; intros x y; cbn [app avec].
    - cbn [last]. rewrite vadd_0_l. apply vadd_0_r.
    - rewrite IH, vadd_assoc, last_cons. reflexivity. }
  rewrite H, Hc. assert (Z : arm o a a =v= vzero) by apply cross_self. rewrite Z, vadd_0_r. reflexivity.
Qed.

Lemma closed_last corners a l : closed_polyline corners = a :: l -> last l a = a.
Proof.
  unfold closed_polyline. destruct corners as [|x r]; [discriminate|]. cbn [app firstn]. intros E. injection E as <- <-.
  apply last_last.
Qed.

Lemma polygon_clip_areas corners h : planar corners -> (exists v, In v corners /\ ~ dot (p_normal h) v == p_d h) ->
  vadd (area_vector (pg_clip (closed_polyline corners) h 0)) (area_vector (pg_clip (closed_polyline corners) (plane_invert h) 0))
  =v= area_vector corners.
Proof.
  intros (n & c & Hn & Hp) (v & Iv & Ov).
  transitivity (area_vector (closed_polyline corners)); [|apply area_closed].
  assert (Sub : forall v, In v (closed_polyline corners) -> In v corners).
  { intros w Hw. unfold closed_polyline in Hw. apply in_app_iff in Hw as [Hw|Hw]; [exact Hw|].
    destruct corners as [|x r]; cbn in Hw; [easy|]. destruct Hw as [->|[]]. apply in_eq. }
  assert (Sup : In v (closed_polyline corners)) by (unfold closed_polyline; apply in_app_iff; now left).
  destruct (closed_polyline corners) as [|a l] eqn:E; [easy|].
  apply clip_areas.
  - rewrite (closed_last corners a l E). reflexivity.
  - exists n, c. split; [exact Hn|]. intros w Hw. apply Hp, Sub, Hw.
  - exists v. split; [exact Sup|exact Ov].
Qed.

(** ** What the clipped polygon consists of *)
Lemma fuse_from_in tol l : forall prev v, In v (fuse_from tol prev l) -> v = prev \/ In v l.
Proof.
  induction l as [|w l IH]; intros prev v H; cbn [fuse_from] in H; [easy|].
  destruct (norm_le (vsub w prev) tol).
  - destruct H as [<-|H]; [now left|]. apply IH in H as [->|H]; [now left|right; now right].
  - destruct H as [<-|H]; [right; apply in_eq|]. apply IH in H as [->|H]; right; [apply in_eq|now right].
Qed.

Lemma fuse_in tol l v : In v (fuse tol l) -> In v l.
Proof.
  destruct l as [|w l]; cbn [fuse]; [easy|]. intros [<-|H]; [apply in_eq|]. apply fuse_from_in in H as [->|H]; [apply in_eq|now right].
Qed.

Lemma sublist_in {A} (l l' : list A) : sublist l l' -> forall x, In x l' -> In x l.
Proof. induction 1; intros x Hx; auto; [now right; auto|]. destruct Hx as [<-|Hx]; [apply in_eq|right; auto]. Qed.

Lemma pl_close_in vs tol v : In v (pl_close vs tol) -> In v vs.
Proof.
  unfold pl_close. destruct (Nat.ltb_spec 2 (length vs)) as [L|L]; [|auto]. destruct (norm_le _ tol); [auto|].
  intros H. apply in_app_iff in H as [H|[<-|[]]]; [exact H|]. apply vtx_in. intros ->. cbn in L. lia.
Qed.

Lemma pg_clip_in a l h tol v : In v (pg_clip (a :: l) h tol) -> In v (ends (pieces h a l)).
Proof.
  unfold pg_clip, pl_set. intros H. apply pl_close_in in H. apply (sublist_in _ _ (remove_duplicates_sub _)) in H.
  apply fuse_in in H. rewrite pl_clip_pieces, raw_ends in H by apply pieces_long. exact H.
Qed.

Lemma edges_pairs a l u v : In (u, v) (edges a l) -> exists pre post, a :: l = pre ++ u :: v :: post.
Proof.
  revert a. induction l as [|b l IH]; intros a H; cbn [edges] in H; [easy|]. destruct H as [H|H].
  - inversion H; subst. exists [], l. reflexivity.
  - destruct (IH b H) as (pre & post & E). exists (a :: pre), post. cbn [app]. now rewrite E.
Qed.

Lemma pg_clip_nil h tol : pg_clip [] h tol = [].
Proof. reflexivity. Qed.

Lemma polygon_clip_sound vs h tol p : In p (pg_clip vs h tol) ->
  inside h p /\ exists pre a b post, vs = pre ++ a :: b :: post /\ on (line_of a b) p.
Proof.
  destruct vs as [|a l]; [rewrite pg_clip_nil; easy|]. intros H. apply pg_clip_in, piece_points in H as (u & v & k & Hi & Hk & E & Hin).
  split; [exact Hin|]. destruct (edges_pairs a l u v Hi) as (pre & post & Ev). exists pre, u, v, post. split; [exact Ev|].
  exists k. split; [apply Hk|]. split; [apply Hk|]. unfold at_param, line_of. cbn [s_start s_end]. exact E.
Qed.

(** Vertices on the inner side stay. *)
Lemma piece_keeps h l : forall a u v, In (u, v) (edges a l) -> ~ u =v= v -> dot (p_normal h) u < p_d h ->
  exists p, In p (ends (pieces h a l)) /\ p =v= u.
Proof.
  induction l as [|b l IH]; intros a u v H Huv Hin; [easy|]. rewrite pieces_cons. cbn [edges] in H. destruct H as [H|H].
  - inversion H; subst u v.
    assert (L : line_long (clip (edge a b) h 0) = true /\ s_start (clip (edge a b) h 0) =v= a).
    { destruct (line_long (clip (edge a b) h 0)) eqn:E.
      - split; [reflexivity|]. destruct (edge_kept a b h E) as [[(K1 & K2)|(K1 & K2)] _]; [exact K2|lra].
      - exfalso. apply (line_long_false _ (clip_vec (edge a b) h 0)) in E.
        destruct (edge_cases a b h) as [k s s' H1 H2 H3 H4 H5 E1 E2 E3 E4|k s s' H1 H2 H3 H4 H5 E1 E2 E3 E4|s s' H1 H2 E1 E2 E3 E4|s s' H1 H2 E1 E2 E3 E4|s s' H1 H2 E1 E2 E3 E4]; try lra.
        + rewrite <- E2, E, E1 in H5. lra.
        + apply Huv. rewrite <- E1, <- E2. now symmetry. }
    destruct L as [L1 L2]. rewrite L1, ends_cons. exists (s_start (clip (edge a b) h 0)). split; [apply in_eq|exact L2].
  - destruct (IH b u v H Huv Hin) as (p & I & E). exists p. split; [|exact E].
    destruct (line_long _); [|exact I]. rewrite ends_cons. right. right. exact I.
Qed.

Lemma fuse_from_keeps l : forall prev v, In v l -> exists u, In u (fuse_from 0 prev l) /\ u =v= v.
Proof.
  intros prev v H. pose proof (fuse_from_zero l prev) as F. revert H. induction F as [|x y k k' Hxy Hk IH]; intros H; [easy|].
  destruct H as [<-|H]; [exists x; split; [apply in_eq|exact Hxy]|]. destruct (IH H) as (u & I & E). exists u. split; [now right|exact E].
Qed.

Lemma fuse_keeps l v : In v l -> exists u, In u (fuse 0 l) /\ u =v= v.
Proof.
  destruct l as [|w l]; [easy|]. intros [<-|H]; [exists w; split; [apply in_eq|reflexivity]|].
  destruct (fuse_from_keeps l w v H) as (u & I & E). exists u. split; [now right|exact E].
Qed.

Lemma edges_of_pairs a l u v pre post : a :: l = pre ++ u :: v :: post -> In (u, v) (edges a l).
Proof.
  revert a l. induction pre as [|x pre IH]; intros a l E; cbn [app] in E; injection E as -> ->; [apply in_eq|].
  destruct pre as [|y pre]; right; [apply (IH u (v :: post)); reflexivity|apply (IH y (pre ++ u :: v :: post)); reflexivity].
Qed.

Lemma polygon_clip_keeps vs h pre a b post : vs = pre ++ a :: b :: post -> ~ a =v= b -> dot (p_normal h) a < p_d h ->
  exists p, In p (pg_clip vs h 0) /\ p =v= a.
Proof.
  intros E Hab Hin. destruct vs as [|x l]; [destruct pre; discriminate|].
  apply edges_of_pairs in E. destruct (piece_keeps h l x a b E Hab Hin) as (p & I & Ep).
  unfold pg_clip, pl_set. rewrite pl_clip_pieces, raw_ends by apply pieces_long.
  destruct (fuse_keeps _ _ I) as (q & Iq & Eq). destruct (remove_duplicates_keeps _ _ Iq) as (r & Ir & Er).
  exists r. split; [|now rewrite Er, Eq]. unfold pl_close. destruct (Nat.ltb _ _); [|exact Ir]. destruct (norm_le _ _); [exact Ir|].
  apply in_app_iff. now left.
Qed.

(** Trees: inversion, clipping, building and the boolean operations. *)
From Coq Require Import QArith Qabs ZArith List Bool Lia Lqa Setoid.
From Verif Require Import Prelude Vec Seg_Model Seg_Spec Seg_Proofs Seg_Lists Face_Spec Grid_Spec Poly_Model Poly_Spec Poly_Proofs Csg_Model Csg_Spec Csg_Hull Csg_Ring Csg_Split.
Import ListNotations.
Open Scope Q_scope.

(** ** Inversion *)
Lemma Qopp_opp (x : Q) : - - x = x. Proof. destruct x as [a b]. unfold Qopp. cbn. now rewrite Z.opp_involutive. Qed.

Lemma poly_invert_twice q : poly_invert (poly_invert q) = q.
Proof.
  destruct q as [vs n]. unfold poly_invert, vl_invert. cbn [pv pn]. rewrite rev_involutive. f_equal.
  destruct n as [x y z]. unfold vopp. cbn [cx cy cz]. now rewrite !Qopp_opp.
Qed.

Lemma plane_invert_twice h : plane_invert (plane_invert h) = h.
Proof.
  destruct h as [[x y z] d]. unfold plane_invert, vscale. cbn [p_normal p_d cx cy cz].
  assert (M : forall w : Q, -1 * (-1 * w) = w) by (intros [a b]; unfold Qmult; cbn [Qnum Qden Qopp]; f_equal; lia).
  assert (M' : forall w : Q, w * -1 * -1 = w) by (intros [a b]; unfold Qmult; cbn [Qnum Qden Qopp]; f_equal; lia).
  now rewrite !M, M'.
Qed.

Lemma invert_twice t : invert (invert t) = t.
Proof.
  induction t as [|pl own f IHf b IHb]; [reflexivity|]. cbn [invert]. rewrite IHf, IHb. f_equal.
  - destruct pl as [h|]; [cbn; now rewrite plane_invert_twice|reflexivity].
  - rewrite map_map. rewrite <- (map_id own) at 2. apply map_ext. apply poly_invert_twice.
Qed.

Lemma invert_null t : invert t = Null <-> t = Null.
Proof. destruct t; cbn; split; intros H; try discriminate; reflexivity. Qed.

Lemma outside_val t p : outside_open t p <-> match t with
  | Node (Some h) _ f b => (0 < val h p /\ (f = Null \/ outside_open f p)) \/ (val h p < 0 /\ outside_open b p) \/
      (val h p == 0 /\ (f = Null \/ outside_open f p) /\ outside_open b p) | _ => False end.
Proof.
  destruct t as [|[h|] own f b]; cbn [outside_open]; try tauto. unfold val.
  split; (intros [[A B]|[[A B]|[A B]]]; [left|right; left|right; right]; split; try assumption; lra).
Qed.
Lemma inside_val t p : inside_open t p <-> match t with
  | Node (Some h) _ f b => (val h p < 0 /\ (b = Null \/ inside_open b p)) \/ (0 < val h p /\ inside_open f p) \/
      (val h p == 0 /\ (b = Null \/ inside_open b p) /\ inside_open f p) | _ => False end.
Proof.
  destruct t as [|[h|] own f b]; cbn [inside_open]; try tauto. unfold val.
  split; (intros [[A B]|[[A B]|[A B]]]; [left|right; left|right; right]; split; try assumption; lra).
Qed.
Lemma outside_c_val tol t p : outside_closed tol t p <-> match t with
  | Node (Some h) _ f b => (- tol <= val h p /\ (f = Null \/ outside_closed tol f p)) \/ (val h p <= tol /\ outside_closed tol b p) | _ => False end.
Proof. destruct t as [|[h|] own f b]; cbn [outside_closed]; try tauto. unfold val. split; intros [[A B]|[A B]]; [left|right|left|right]; split; try assumption; lra. Qed.
Lemma inside_c_val tol t p : inside_closed tol t p <-> match t with
  | Node (Some h) _ f b => (val h p <= tol /\ (b = Null \/ inside_closed tol b p)) \/ (- tol <= val h p /\ inside_closed tol f p) | _ => False end.
Proof. destruct t as [|[h|] own f b]; cbn [inside_closed]; try tauto. unfold val. split; intros [[A B]|[A B]]; [left|right|left|right]; split; try assumption; lra. Qed.

Lemma invert_outside t p : outside_open (invert t) p <-> inside_open t p.
Proof.
  induction t as [|[h|] own f IHf b IHb]; [cbn; tauto| |cbn; tauto].
  rewrite outside_val, inside_val. cbn [invert option_map]. rewrite val_invert, !invert_null, IHf, IHb.
  split; (intros [[A B]|[[A B]|[A B]]]; [left|right; left|right; right]; split; try assumption; lra).
Qed.

Lemma invert_inside t p : inside_open (invert t) p <-> outside_open t p.
Proof. rewrite <- (invert_twice t) at 2. rewrite invert_outside. tauto. Qed.

Lemma invert_outside_c tol t p : outside_closed tol (invert t) p <-> inside_closed tol t p.
Proof.
  induction t as [|[h|] own f IHf b IHb]; [cbn; tauto| |cbn; tauto].
  rewrite outside_c_val, inside_c_val. cbn [invert option_map]. rewrite val_invert, invert_null, IHf, IHb.
  split; intros [[A B]|[A B]]; [left|right|left|right]; split; try assumption; lra.
Qed.

Lemma invert_planes t : planes_set t -> planes_set (invert t).
Proof. induction t as [|[h|] own f IHf b IHb]; cbn; [tauto| |tauto]. intros (_ & A & B). split; [discriminate|tauto]. Qed.

Lemma in_or_out t p : t <> Null -> planes_set t -> ~ on_some_plane t p ->
  (outside_open t p /\ ~ inside_open t p) \/ (inside_open t p /\ ~ outside_open t p).
Proof.
  induction t as [|[h|] own f IHf b IHb]; intros Hn Hs Ho; [now elim Hn| |cbn in Hs; now elim (proj1 Hs)].
  cbn [planes_set] in Hs. destruct Hs as (_ & Sf & Sb). cbn [on_some_plane] in Ho.
  assert (Hf : ~ on_some_plane f p) by tauto. assert (Hb : ~ on_some_plane b p) by tauto.
  assert (Hv : ~ val h p == 0) by (unfold val; intros E; apply Ho; left; lra).
  rewrite outside_val, inside_val.
  destruct (Qlt_le_dec 0 (val h p)) as [V|V].
  - destruct f as [|fp fo ff fb] eqn:Ef.
    + left. split; [left; tauto|]. intros [[A _]|[[_ A]|[A _]]]; [lra|exact A|lra].
    + assert (Hn' : Node fp fo ff fb <> Null) by discriminate.
      destruct (IHf Hn' Sf Hf) as [[A B]|[A B]].
      * left. split; [left; tauto|]. intros [[X _]|[[_ X]|[X _]]]; [lra|tauto|lra].
      * right. split; [right; left; tauto|]. intros [[_ [X|X]]|[[X _]|[X _]]]; [discriminate|tauto|lra|lra].
  - assert (V' : val h p < 0) by lra. destruct b as [|bp bo bf bb] eqn:Eb.
    + right. split; [left; tauto|]. intros [[A _]|[[_ A]|[A _]]]; [lra|exact A|lra].
    + assert (Hn' : Node bp bo bf bb <> Null) by discriminate.
      destruct (IHb Hn' Sb Hb) as [[A B]|[A B]].
      * left. split; [right; left; tauto|]. intros [[_ [X|X]]|[[X _]|[X _]]]; [discriminate|tauto|lra|lra].
      * right. split; [left; tauto|]. intros [[X _]|[[_ X]|[X _]]]; [lra|tauto|lra].
Qed.

Lemma closed_not_inside t p : outside_closed 0 t p -> ~ inside_open t p.
Proof.
  induction t as [|[h|] own f IHf b IHb]; [cbn; tauto| |cbn; tauto].
  rewrite outside_c_val, inside_val.
  intros [[A B]|[A B]] [[X Y]|[[X Y]|[X [Y Y']]]]; try lra.
  - destruct B as [->|B]; [destruct Y|]. exact (IHf B Y).
  - destruct B as [->|B]; [destruct Y'|]. exact (IHf B Y').
  - destruct Y as [->|Y]; [destruct B|]. exact (IHb B Y).
  - destruct Y as [->|Y]; [destruct B|]. exact (IHb B Y).
Qed.

Lemma open_closed tol t p : 0 <= tol -> outside_open t p -> outside_closed tol t p.
Proof.
  intros Ht. induction t as [|[h|] own f IHf b IHb]; [cbn; tauto| |cbn; tauto].
  rewrite outside_c_val, outside_val. intros [[A [B|B]]|[[A B]|[A [_ B]]]]; [left|left|right|right]; split; try lra; tauto.
Qed.

(** ** The polygons of a tree *)
Lemma all_polygons_stored t : fst (all_polygons t) = stored t.
Proof.
  induction t as [|pl own f IHf b IHb]; [reflexivity|]. cbn [all_polygons stored].
  destruct (all_polygons f) as [lf f'], (all_polygons b) as [lb b']. cbn [fst] in *. now subst.
Qed.

Lemma stored_invert_in r t : In r (stored (invert t)) <-> exists q, In q (stored t) /\ r = poly_invert q.
Proof.
  induction t as [|pl own f IHf b IHb]; cbn [invert stored].
  - split; [intros []|intros (q & [] & _)].
  - rewrite !in_app_iff, in_map_iff, IHf, IHb. split.
    + intros [(q & E & H)|[(q & H & E)|(q & H & E)]]; exists q; (split; [rewrite !in_app_iff; tauto|now subst]).
    + intros (q & H & E). rewrite !in_app_iff in H. destruct H as [H|[H|H]]; [left|right; right|right; left]; exists q; split; auto.
Qed.

(** ** Parts of polygons *)
Definition part_of (r q : poly) : Prop :=
  pn r = pn q /\ (forall v, In v (pv r) -> points q v) /\ (flat q -> flat r) /\ (convex_poly q -> convex_poly r) /\ (pv q <> [] -> pv r <> []).

Lemma part_refl q : part_of q q.
Proof. split; [reflexivity|]. split; [intros v Hv; now apply hull_in|]. tauto. Qed.
Lemma part_points r q p : part_of r q -> points r p -> points q p.
Proof. intros (_ & H & _) Hp. apply (hull_trans (pv r)); assumption. Qed.
Lemma part_trans r s q : part_of r s -> part_of s q -> part_of r q.
Proof.
  intros P Q. pose proof P as (E & H & A & B & C). pose proof Q as (E' & H' & A' & B' & C').
  split; [congruence|]. split; [intros v Hv; apply (part_points s q v Q), H, Hv|]. tauto.
Qed.
Lemma split_parts h tol q r : 0 <= tol -> In r (all_parts (split h tol q)) -> part_of r q.
Proof. intros Ht H. now apply (split_part h tol). Qed.

Lemma in_front_parts h tol q r : In r (s_front (split h tol q)) -> In r (all_parts (split h tol q)).
Proof. unfold all_parts. rewrite !in_app_iff. tauto. Qed.
Lemma in_back_parts h tol q r : In r (s_back (split h tol q)) -> In r (all_parts (split h tol q)).
Proof. unfold all_parts. rewrite !in_app_iff. tauto. Qed.

(** ** Clipping *)
Definition to_front (h : plane) (tol : Q) (rcf : bool) (q : poly) : list poly :=
  let r := split h tol q in (if rcf then [] else s_cf r) ++ s_front r.
Definition to_back (h : plane) (tol : Q) (rcf : bool) (q : poly) : list poly :=
  let r := split h tol q in (if rcf then s_cf r else []) ++ s_cb r ++ s_back r.

Lemma clip_node tol rcf h own f b ps : Csg_Model.clip tol rcf (Node (Some h) own f b) ps =
  (fr <- Csg_Model.clip tol rcf f (flat_map (to_front h tol rcf) ps) ;;
   ba <- match b with Null => Ok [] | _ => Csg_Model.clip tol rcf b (flat_map (to_back h tol rcf) ps) end ;; Ok (fr ++ ba)).
Proof. reflexivity. Qed.

Lemma clip_defined tol rcf t : planes_set t -> forall ps, exists out, Csg_Model.clip tol rcf t ps = Ok out.
Proof.
  induction t as [|[h|] own f IHf b IHb]; intros S ps; [cbn; eauto| |cbn in S; now elim (proj1 S)].
  cbn [planes_set] in S. destruct S as (_ & Sf & Sb). rewrite clip_node.
  destruct (IHf Sf (flat_map (to_front h tol rcf) ps)) as [fr ->]. cbn [bind].
  destruct b; [cbn; eauto|]. destruct (IHb Sb (flat_map (to_back h tol rcf) ps)) as [ba ->]. cbn [bind]. eauto.
Qed.

Lemma to_front_spec h tol rcf q r : 0 <= tol -> In r (to_front h tol rcf q) -> part_of r q /\ (forall p, points r p -> - tol <= val h p).
Proof.
  intros Ht. unfold to_front. rewrite in_app_iff. intros [H|H].
  - destruct rcf; [destruct H|]. assert (Hc : In r (s_cf (split h tol q) ++ s_cb (split h tol q))) by (apply in_app_iff; now left).
    apply split_coplanar in Hc as [-> V]; [|exact Ht]. split; [apply part_refl|]. intros p Hp. now apply V.
  - split; [now apply (split_parts h tol), in_front_parts|]. now apply (split_front h tol q).
Qed.

Lemma to_back_spec h tol rcf q r : 0 <= tol -> In r (to_back h tol rcf q) -> part_of r q /\ (forall p, points r p -> val h p <= tol).
Proof.
  intros Ht. unfold to_back. rewrite !in_app_iff. intros [H|[H|H]].
  - destruct rcf; [|destruct H]. assert (Hc : In r (s_cf (split h tol q) ++ s_cb (split h tol q))) by (apply in_app_iff; now left).
    apply split_coplanar in Hc as [-> V]; [|exact Ht]. split; [apply part_refl|]. intros p Hp. now apply V.
  - assert (Hc : In r (s_cf (split h tol q) ++ s_cb (split h tol q))) by (apply in_app_iff; now right).
    apply split_coplanar in Hc as [-> V]; [|exact Ht]. split; [apply part_refl|]. intros p Hp. now apply V.
  - split; [now apply (split_parts h tol), in_back_parts|]. now apply (split_back h tol q).
Qed.

Lemma clip_sound tol rcf t : 0 <= tol -> forall ps out, Csg_Model.clip tol rcf t ps = Ok out -> forall r, In r out ->
  exists q, In q ps /\ part_of r q /\ (t <> Null -> planes_set t -> forall p, points r p -> outside_closed tol t p).
Proof.
  intros Ht. induction t as [|[h|] own f IHf b IHb]; intros ps out E r Hr.
  - cbn in E. injection E as <-. exists r. split; [exact Hr|]. split; [apply part_refl|]. intros X. now elim X.
  - rewrite clip_node in E.
    destruct (Csg_Model.clip tol rcf f _) as [fr| |] eqn:Ef; try discriminate E. cbn [bind] in E.
    assert (Back : forall ba, (match b with Null => Ok [] | _ => Csg_Model.clip tol rcf b (flat_map (to_back h tol rcf) ps) end) = Ok ba ->
      In r ba -> exists q, In q ps /\ part_of r q /\ (planes_set b -> forall p, points r p -> val h p <= tol /\ outside_closed tol b p)).
    { intros ba Eb Hb. destruct b as [|bp bo bf bb]; [injection Eb as <-; destruct Hb|].
      destruct (IHb _ _ Eb r Hb) as (q & Hq & P & O). apply in_flat_map in Hq as (q' & Hq' & Hq).
      apply to_back_spec in Hq as [P' V]; [|exact Ht]. exists q'. split; [exact Hq'|]. split; [exact (part_trans _ _ _ P P')|].
      intros S p Hp. split; [apply V; exact (part_points _ _ _ P Hp)|apply O; [discriminate|exact S|exact Hp]]. }
    destruct (match b with Null => Ok [] | _ => Csg_Model.clip tol rcf b (flat_map (to_back h tol rcf) ps) end) as [ba| |]; try discriminate E.
    cbn [bind] in E. injection E as <-. apply in_app_iff in Hr as [Hr|Hr].
    + destruct (IHf _ _ Ef r Hr) as (q & Hq & P & O). apply in_flat_map in Hq as (q' & Hq' & Hq).
      apply to_front_spec in Hq as [P' V]; [|exact Ht]. exists q'. split; [exact Hq'|]. split; [exact (part_trans _ _ _ P P')|].
      intros _ S p Hp. rewrite outside_c_val. left. split; [apply V; exact (part_points _ _ _ P Hp)|].
      cbn [planes_set] in S. destruct f as [|fp fo ff fb]; [now left|]. right. apply O; [discriminate|tauto|exact Hp].
    + destruct (Back ba eq_refl Hr) as (q & Hq & P & O). exists q. split; [exact Hq|]. split; [exact P|].
      intros _ S p Hp. rewrite outside_c_val. right. apply O; [cbn [planes_set] in S; tauto|exact Hp].
  - destruct ps as [|q0 ps]; [|discriminate E]. cbn [Csg_Model.clip bind fst snd] in E.
    assert (Nil : forall t' out', Csg_Model.clip tol rcf t' [] = Ok out' -> out' = []).
    { clear. induction t' as [|[h|] own f IHf b IHb]; intros out' E.
      - cbn in E. now injection E.
      - rewrite clip_node in E. cbn [flat_map] in E. destruct (Csg_Model.clip tol rcf f []) as [x| |] eqn:Ef; try discriminate. cbn [bind] in E.
        rewrite (IHf _ eq_refl) in E. destruct b; [cbn in E; now injection E|].
        destruct (Csg_Model.clip tol rcf (Node _ _ _ _) []) as [y| |] eqn:Eb; try discriminate. cbn [bind] in E. rewrite (IHb _ eq_refl) in E. now injection E.
      - cbn [Csg_Model.clip bind fst snd] in E. destruct (Csg_Model.clip tol rcf f []) as [x| |] eqn:Ef; try discriminate. cbn [bind] in E.
        rewrite (IHf _ eq_refl) in E. destruct b; [cbn in E; now injection E|].
        destruct (Csg_Model.clip tol rcf (Node _ _ _ _) []) as [y| |] eqn:Eb; try discriminate. cbn [bind] in E. rewrite (IHb _ eq_refl) in E. now injection E. }
    assert (Z : out = []); [|subst out; destruct Hr].
    destruct (Csg_Model.clip tol rcf f []) as [x| |] eqn:Ef; try discriminate. cbn [bind] in E.
    rewrite (Nil _ _ Ef) in E. destruct b; [cbn in E; now injection E|].
    destruct (Csg_Model.clip tol rcf (Node _ _ _ _) []) as [y| |] eqn:Eb; try discriminate. cbn [bind] in E. rewrite (Nil _ _ Eb) in E. now injection E.
Qed.

Lemma clip_complete rcf t : forall ps out, Csg_Model.clip 0 rcf t ps = Ok out -> forall q p, In q ps -> convex_poly q -> points q p ->
  outside_open t p -> exists r, In r out /\ part_of r q /\ points r p.
Proof.
  assert (Z : 0 <= 0) by lra.
  induction t as [|[h|] own f IHf b IHb]; intros ps out E q p Hq C Hp O; [destruct O| |destruct O].
  rewrite clip_node in E. rewrite outside_val in O.
  destruct (Csg_Model.clip 0 rcf f _) as [fr| |] eqn:Ef; try discriminate E. cbn [bind] in E.
  assert (Front : forall s, In s (flat_map (to_front h 0 rcf) ps) -> part_of s q -> points s p -> f = Null \/ outside_open f p -> exists r, In r out /\ part_of r q /\ points r p).
  { intros s Hs' P Sp Of. assert (R : exists r, In r fr /\ part_of r s /\ points r p).
    { destruct Of as [->|Of].
      - cbn in Ef. injection Ef as <-. exists s. split; [exact Hs'|]. split; [apply part_refl|exact Sp].
      - destruct P as (_ & _ & _ & PC & _). apply (IHf _ _ Ef s p Hs' (PC C) Sp Of). }
    destruct R as (r & Hr & Rs & Rp). destruct (match b with Null => _ | _ => _ end) as [ba| |]; try discriminate E.
    cbn [bind] in E. injection E as <-. exists r. split; [apply in_app_iff; now left|]. split; [exact (part_trans _ _ _ Rs P)|exact Rp]. }
  assert (Behind : forall s, In s (flat_map (to_back h 0 rcf) ps) -> part_of s q -> points s p -> outside_open b p -> exists r, In r out /\ part_of r q /\ points r p).
  { intros s Hs' P Sp Ob. destruct b as [|bp bo bf bb]; [destruct Ob|].
    destruct (Csg_Model.clip 0 rcf (Node bp bo bf bb) _) as [ba| |] eqn:Eb; try discriminate E. cbn [bind] in E. injection E as <-.
    pose proof P as (_ & _ & _ & PC & _).
    destruct (IHb _ _ Eb s p Hs' (PC C) Sp Ob) as (r & Hr & Rs & Rp).
    exists r. split; [apply in_app_iff; now right|]. split; [exact (part_trans _ _ _ Rs P)|exact Rp]. }
  destruct O as [[V O]|[[V O]|[V [O O']]]].
  - destruct (split_cover_front h q p C Hp V) as (s & Hs & Sp).
    apply (Front s); [|now apply (split_parts h 0), in_front_parts|exact Sp|exact O].
    apply in_flat_map; exists q; split; [exact Hq|]; unfold to_front; apply in_app_iff; now right.
  - destruct (split_cover_back h q p C Hp V) as (s & Hs & Sp).
    apply (Behind s); [|now apply (split_parts h 0), in_back_parts|exact Sp|exact O].
    apply in_flat_map; exists q; split; [exact Hq|]; unfold to_back; rewrite !in_app_iff; now right; right.
  - destruct (split_cover h q p C Hp) as (s & Hs & Sp). pose proof (split_parts h 0 q s Z Hs) as P.
    assert (W : In s (to_front h 0 rcf q) \/ In s (to_back h 0 rcf q)).
    { unfold to_front, to_back, all_parts in *. rewrite !in_app_iff in *. destruct rcf; tauto. }
    destruct W as [W|W]; [apply (Front s)|apply (Behind s)]; try assumption; apply in_flat_map; exists q; split; assumption.
Qed.

(** ** clipTo *)
Fixpoint same_planes (t t' : bsp) : Prop :=
  match t, t' with
  | Null, Null => True
  | Node pl _ f b, Node pl' _ f' b' => pl = pl' /\ same_planes f f' /\ same_planes b b'
  | _, _ => False
  end.

Lemma same_planes_refl t : same_planes t t. Proof. induction t; cbn; tauto. Qed.
Lemma same_planes_trans a : forall b c, same_planes a b -> same_planes b c -> same_planes a c.
Proof.
  induction a as [|pl own f IHf b IHb]; intros [|pl' own' f' b'] [|pl'' own'' f'' b'']; cbn; try tauto.
  intros (-> & A & B) (-> & A' & B'). split; [reflexivity|]. split; [eapply IHf|eapply IHb]; eassumption.
Qed.
Lemma same_null t t' : same_planes t t' -> (t = Null <-> t' = Null).
Proof. destruct t, t'; cbn; try tauto. intros _. split; discriminate. Qed.
Lemma same_set t : forall t', same_planes t t' -> planes_set t -> planes_set t'.
Proof.
  induction t as [|pl own f IHf b IHb]; intros [|pl' own' f' b']; cbn; try tauto. intros (-> & A & B) (C & D & E). split; [exact C|]. split; auto.
Qed.
Lemma same_outside t : forall t' p, same_planes t t' -> (outside_open t p <-> outside_open t' p).
Proof.
  induction t as [|pl own f IHf b IHb]; intros [|pl' own' f' b'] p; cbn [same_planes]; try tauto. intros (<- & A & B).
  pose proof (same_null _ _ A). pose proof (same_null _ _ B). pose proof (IHf _ p A). pose proof (IHb _ p B).
  cbn [outside_open]. destruct pl; tauto.
Qed.
Lemma same_outside_c tol t : forall t' p, same_planes t t' -> (outside_closed tol t p <-> outside_closed tol t' p).
Proof.
  induction t as [|pl own f IHf b IHb]; intros [|pl' own' f' b'] p; cbn [same_planes]; try tauto. intros (<- & A & B).
  pose proof (same_null _ _ A). pose proof (same_null _ _ B). pose proof (IHf _ p A). pose proof (IHb _ p B).
  cbn [outside_closed]. destruct pl; tauto.
Qed.
Lemma same_invert t : forall t', same_planes t t' -> same_planes (invert t) (invert t').
Proof.
  induction t as [|pl own f IHf b IHb]; intros [|pl' own' f' b']; cbn; try tauto. intros (-> & A & B). split; [reflexivity|]. split; auto.
Qed.

Lemma clip_to_defined tol rcf other t : planes_set other -> exists t', clip_to tol rcf other t = Ok t' /\ same_planes t t'.
Proof.
  intros S. induction t as [|pl own f (f' & Ef & Pf) b (b' & Eb & Pb)]; [exists Null; cbn; tauto|].
  cbn [clip_to]. destruct (clip_defined tol rcf other S own) as [o ->]. cbn [bind]. rewrite Ef. cbn [bind]. rewrite Eb. cbn [bind].
  eexists. split; [reflexivity|]. cbn. tauto.
Qed.

Lemma clip_to_sound tol rcf other : 0 <= tol -> other <> Null -> planes_set other -> forall t t', clip_to tol rcf other t = Ok t' ->
  forall r, In r (stored t') -> exists q, In q (stored t) /\ part_of r q /\ forall p, points r p -> outside_closed tol other p.
Proof.
  intros Ht Hn S. induction t as [|pl own f IHf b IHb]; intros t' E r Hr; [cbn in E; injection E as <-; destruct Hr|].
  cbn [clip_to] in E. destruct (Csg_Model.clip tol rcf other own) as [o| |] eqn:Eo; try discriminate. cbn [bind] in E.
  destruct (clip_to tol rcf other f) as [f'| |] eqn:Ef; try discriminate. cbn [bind] in E.
  destruct (clip_to tol rcf other b) as [b'| |] eqn:Eb; try discriminate. cbn [bind] in E. injection E as <-.
  cbn [stored] in Hr. rewrite !in_app_iff in Hr. cbn [stored]. destruct Hr as [Hr|[Hr|Hr]].
  - destruct (clip_sound tol rcf other Ht _ _ Eo r Hr) as (q & Hq & P & O). exists q. split; [rewrite !in_app_iff; tauto|]. split; [exact P|now apply O].
  - destruct (IHf _ eq_refl r Hr) as (q & Hq & P). exists q. split; [rewrite !in_app_iff; tauto|exact P].
  - destruct (IHb _ eq_refl r Hr) as (q & Hq & P). exists q. split; [rewrite !in_app_iff; tauto|exact P].
Qed.

Lemma clip_to_complete rcf other : forall t t', clip_to 0 rcf other t = Ok t' ->
  forall q p, In q (stored t) -> convex_poly q -> points q p -> outside_open other p -> exists r, In r (stored t') /\ part_of r q /\ points r p.
Proof.
  induction t as [|pl own f IHf b IHb]; intros t' E q p Hq C Hp O; [destruct Hq|].
  cbn [clip_to] in E. destruct (Csg_Model.clip 0 rcf other own) as [o| |] eqn:Eo; try discriminate. cbn [bind] in E.
  destruct (clip_to 0 rcf other f) as [f'| |] eqn:Ef; try discriminate. cbn [bind] in E.
  destruct (clip_to 0 rcf other b) as [b'| |] eqn:Eb; try discriminate. cbn [bind] in E. injection E as <-.
  cbn [stored] in Hq. rewrite !in_app_iff in Hq. cbn [stored]. destruct Hq as [Hq|[Hq|Hq]].
  - destruct (clip_complete rcf other _ _ Eo q p Hq C Hp O) as (r & Hr & P). exists r. split; [rewrite !in_app_iff; tauto|exact P].
  - destruct (IHf _ eq_refl q p Hq C Hp O) as (r & Hr & P). exists r. split; [rewrite !in_app_iff; tauto|exact P].
  - destruct (IHb _ eq_refl q p Hq C Hp O) as (r & Hr & P). exists r. split; [rewrite !in_app_iff; tauto|exact P].
Qed.

(** ** Building *)
Lemma usable_part r q : part_of r q -> usable q -> usable r.
Proof. intros (_ & _ & A & _ & B) [F N]. split; auto. Qed.

Lemma own_plane tol q v0 : 0 <= tol -> flat q -> In v0 (pv q) -> s_front (split (Plane (pn q) (dot (pn q) v0)) tol q) = [] /\ s_back (split (Plane (pn q) (dot (pn q) v0)) tol q) = [].
Proof.
  intros Ht [N [c Hc]] Hv0. set (h := Plane _ _).
  assert (V : forall v, In v (pv q) -> val h v == 0) by (intros v Hv; unfold val, h; cbn [p_normal p_d]; rewrite !Hc by assumption; ring).
  destruct (split_cases h tol q Ht) as [[_ [[_ ->]|[_ ->]]]|[((v & Hv & X) & _)|[((v & Hv & X) & _)|(u & v & Hu & _ & X & _)]]]; try (split; reflexivity).
  - rewrite V in X by exact Hv. lra.
  - rewrite V in X by exact Hv. lra.
  - rewrite V in X by exact Hu. lra.
Qed.

Lemma split_short h tol q : 0 <= tol -> (length (s_front (split h tol q)) <= 1 /\ length (s_back (split h tol q)) <= 1)%nat.
Proof.
  intros Ht. assert (P : forall vs n, (length (piece vs n) <= 1)%nat) by (intros; unfold piece; destruct (Nat.ltb _ _); cbn; lia).
  destruct (split_cases h tol q Ht) as [[_ [[_ ->]|[_ ->]]]|[(_ & _ & ->)|[(_ & _ & ->)|(u & v & _ & _ & _ & _ & ->)]]];
    unfold s_front, s_back; cbn [fst snd]; try (cbn; lia). split; apply P.
Qed.

Lemma flat_map_short {A B} (f : A -> list B) l : (forall a, In a l -> (length (f a) <= 1)%nat) -> (length (flat_map f l) <= length l)%nat.
Proof.
  induction l as [|a l IH]; intros H; cbn [flat_map length]; [lia|]. rewrite app_length.
  pose proof (H a (or_introl eq_refl)). specialize (IH (fun x Hx => H x (or_intror Hx))). lia.
Qed.

Lemma build_spec tol : 0 <= tol -> forall fuel t ps, t <> Null -> Forall usable ps -> (length ps < fuel)%nat ->
  exists t', build tol fuel t ps = Ok t' /\ t' <> Null /\
    (planes_set t \/ (t = fresh /\ ps <> []) -> planes_set t') /\
    (forall r, In r (stored t') -> In r (stored t) \/ exists q, In q ps /\ part_of r q) /\
    (forall r, In r (stored t) -> In r (stored t')) /\
    (tol = 0 -> forall q p, In q ps -> convex_poly q -> points q p -> exists r, In r (stored t') /\ part_of r q /\ points r p).
Proof.
  intros Ht. induction fuel as [|fuel IH]; intros t ps Hn U L; [lia|]. cbn [build].
  destruct t as [|pl own f b]; [now elim Hn|]. destruct ps as [|q0 ps'].
  - exists (Node pl own f b). split; [reflexivity|]. split; [exact Hn|]. split; [intros [S|[_ X]]; [exact S|now elim X]|].
    split; [auto|]. split; [auto|]. intros _ q p [].
  - pose proof (Forall_inv U) as [F0 N0]. destruct (pv q0) as [|v0 w] eqn:Ev; [now elim N0|].
    set (h := Plane (pn q0) (dot (pn q0) v0)). set (ps := q0 :: ps') in *.
    set (own' := own ++ flat_map (fun q => let r := split h tol q in s_cf r ++ s_cb r) ps).
    set (sf := flat_map (fun q => s_front (split h tol q)) ps). set (sb := flat_map (fun q => s_back (split h tol q)) ps).
    assert (Hv0 : In v0 (pv q0)) by (rewrite Ev; now left).
    destruct (own_plane tol q0 v0 Ht F0 Hv0) as [Sf0 Sb0]. fold h in Sf0, Sb0.
    assert (Lf : (length sf < fuel)%nat).
    { unfold sf, ps. cbn [flat_map]. rewrite Sf0. cbn [app]. pose proof (flat_map_short (fun q => s_front (split h tol q)) ps' (fun q _ => proj1 (split_short h tol q Ht))).
      unfold ps in L. cbn [length] in L. lia. }
    assert (Lb : (length sb < fuel)%nat).
    { unfold sb, ps. cbn [flat_map]. rewrite Sb0. cbn [app]. pose proof (flat_map_short (fun q => s_back (split h tol q)) ps' (fun q _ => proj2 (split_short h tol q Ht))).
      unfold ps in L. cbn [length] in L. lia. }
    assert (Pf : forall r, In r sf -> exists q, In q ps /\ part_of r q).
    { intros r Hr. apply in_flat_map in Hr as (q & Hq & Hr). exists q. split; [exact Hq|]. now apply (split_parts h tol), in_front_parts. }
    assert (Pb : forall r, In r sb -> exists q, In q ps /\ part_of r q).
    { intros r Hr. apply in_flat_map in Hr as (q & Hq & Hr). exists q. split; [exact Hq|]. now apply (split_parts h tol), in_back_parts. }
    assert (Uf : Forall usable sf).
    { apply Forall_forall. intros r Hr. destruct (Pf r Hr) as (q & Hq & P). apply (usable_part r q P). rewrite Forall_forall in U. now apply U. }
    assert (Ub : Forall usable sb).
    { apply Forall_forall. intros r Hr. destruct (Pb r Hr) as (q & Hq & P). apply (usable_part r q P). rewrite Forall_forall in U. now apply U. }
    (* one child *)
    assert (Child : forall c s, (length s < fuel)%nat -> Forall usable s ->
      exists c', match s with [] => Ok c | _ => build tol fuel (match c with Null => fresh | _ => c end) s end = Ok c' /\
        (planes_set c -> planes_set c') /\
        (forall r, In r (stored c') -> In r (stored c) \/ exists q, In q s /\ part_of r q) /\
        (forall r, In r (stored c) -> In r (stored c')) /\
        (tol = 0 -> forall q p, In q s -> convex_poly q -> points q p -> exists r, In r (stored c') /\ part_of r q /\ points r p)).
    { intros c s Ls Us. destruct s as [|s0 s'].
      - exists c. split; [reflexivity|]. split; [auto|]. split; [auto|]. split; [auto|]. intros _ q p [].
      - set (s := s0 :: s') in *. set (c0 := match c with Null => fresh | _ => c end).
        assert (Hc0 : c0 <> Null) by (destruct c; discriminate).
        destruct (IH c0 s Hc0 Us Ls) as (c' & E & _ & S & A & B & C). exists c'. split; [exact E|].
        assert (St : forall r, In r (stored c0) <-> In r (stored c)) by (intros r; unfold c0; destruct c; cbn; tauto).
        split; [intros X; apply S; destruct c; [right; split; [reflexivity|discriminate]|left; exact X]|].
        split; [intros r Hr; rewrite <- St; now apply A|]. split; [intros r Hr; apply B; now rewrite St|exact C]. }
    destruct (Child f sf Lf Uf) as (f' & Ef & Sf & Af & Bf & Cf). destruct (Child b sb Lb Ub) as (b' & Eb & Sb & Ab & Bb & Cb).
    rewrite Ef. cbn [bind]. rewrite Eb. cbn [bind].
    exists (Node (Some h) own' f' b'). split; [reflexivity|]. split; [discriminate|].
    split; [|split; [|split]].
    + intros [S|[E _]]; cbn [planes_set].
      * cbn [planes_set] in S. split; [discriminate|]. tauto.
      * injection E as -> -> -> ->. split; [discriminate|]. split; [apply Sf|apply Sb]; exact I.
    + cbn [stored]. intros r Hr. rewrite !in_app_iff in *. unfold own' in Hr. destruct Hr as [Hr|[Hr|Hr]].
      * apply in_app_iff in Hr as [Hr|Hr]; [tauto|]. right. apply in_flat_map in Hr as (q & Hq & Hr). exists q. split; [exact Hq|].
        apply split_coplanar in Hr as [-> _]; [apply part_refl|exact Ht].
      * destruct (Af r Hr) as [X|(s & Hs & P)]; [tauto|]. right. destruct (Pf s Hs) as (q & Hq & P'). exists q. split; [exact Hq|exact (part_trans _ _ _ P P')].
      * destruct (Ab r Hr) as [X|(s & Hs & P)]; [tauto|]. right. destruct (Pb s Hs) as (q & Hq & P'). exists q. split; [exact Hq|exact (part_trans _ _ _ P P')].
    + cbn [stored]. intros r Hr. rewrite !in_app_iff in *. unfold own'. rewrite in_app_iff. destruct Hr as [Hr|[Hr|Hr]]; auto.
    + intros T q p Hq C Hp. subst tol. destruct (split_cover h q p C Hp) as (s & Hs & Sp).
      pose proof (split_parts h 0 q s Ht Hs) as P. pose proof P as (_ & _ & _ & PC & _).
      cbn [stored]. unfold all_parts in Hs. rewrite app_assoc in Hs. apply in_app_iff in Hs as [Hs|Hs]; [|apply in_app_iff in Hs as [Hs|Hs]].
      * exists s. split; [|split; [exact P|exact Sp]]. rewrite !in_app_iff. left. unfold own'. rewrite in_app_iff. right. apply in_flat_map. exists q. split; [exact Hq|exact Hs].
      * assert (Hs' : In s sf) by (apply in_flat_map; exists q; split; assumption).
        destruct (Cf eq_refl s p Hs' (PC C) Sp) as (r & Hr & Q & Rp). exists r. split; [rewrite !in_app_iff; tauto|]. split; [exact (part_trans _ _ _ Q P)|exact Rp].
      * assert (Hs' : In s sb) by (apply in_flat_map; exists q; split; assumption).
        destruct (Cb eq_refl s p Hs' (PC C) Sp) as (r & Hr & Q & Rp). exists r. split; [rewrite !in_app_iff; tauto|]. split; [exact (part_trans _ _ _ Q P)|exact Rp].
Qed.

Lemma bsp_of_spec tol ps : 0 <= tol -> ps <> [] -> Forall usable ps ->
  exists t, bsp_of tol ps = Ok t /\ t <> Null /\ planes_set t /\
    (forall r, In r (stored t) -> exists q, In q ps /\ part_of r q) /\
    (tol = 0 -> forall q p, In q ps -> convex_poly q -> points q p -> exists r, In r (stored t) /\ part_of r q /\ points r p).
Proof.
  intros Ht Hne U. unfold bsp_of. destruct ps as [|q0 ps']; [now elim Hne|]. set (ps := q0 :: ps') in *.
  assert (Hf : fresh <> Null) by discriminate. assert (L : (length ps < S (length ps))%nat) by lia.
  destruct (build_spec tol Ht (S (length ps)) fresh ps Hf U L) as (t & E & N & S & A & _ & C).
  exists t. split; [exact E|]. split; [exact N|]. split; [apply S; right; split; [reflexivity|exact Hne]|].
  split; [|exact C]. intros r Hr. destruct (A r Hr) as [[]|X]. exact X.
Qed.

(** Triangulating a polygon by cutting off ears. *)
From Coq Require Import QArith ZArith List Bool Lia Lqa Setoid Sorted.
From Verif Require Import Prelude Vec Seg_Model Seg_Proofs Seg_Lists Face_Spec Grid_Spec Poly_Model Poly_Spec Poly_Proofs.
Import ListNotations.
Open Scope Q_scope.

Lemma nth_skip {A} n : forall (l : list A) j d, nth j (skipn n l) d = nth (n + j) l d.
Proof. induction n as [|n IH]; intros [|a l] j d; cbn; auto. now destruct j. Qed.
Lemma nth_first {A} n : forall (l : list A) j d, (j < n)%nat -> nth j (firstn n l) d = nth j l d.
Proof. induction n as [|n IH]; intros [|a l] [|j] d H; cbn; auto; try lia. apply IH. lia. Qed.

Section Ears.
Variable angle : coord -> coord -> Q.
Hypothesis angle_small : forall u v, angle u v < 6284 # 1000.
Variable vs : list coord.

Definition around (chain : list nat) (i : nat) : nat * nat * nat :=
  (nth i chain 0%nat, nth (Nat.modulo (i + 1) (length chain)) chain 0%nat,
   nth (Nat.modulo (i + (length chain - 1)) (length chain)) chain 0%nat).

Lemma scan_spec chain p0 k : (2 < length chain)%nat -> (1 <= k <= length chain)%nat ->
  exists best wi, fold_left (ear_scan angle vs chain) (seq 0 k) (6284 # 1000, p0, 0%nat) = (best, around chain wi, wi) /\ (wi < k)%nat.
Proof.
  intros L. induction k as [|k IH]; intros Hk; [lia|].
  assert (A : forall i, (i < length chain)%nat ->
    (nth i chain 0%nat,
     if Nat.eqb i 0 then nth 1 chain 0%nat else nth (Nat.modulo (i + 1) (length chain)) chain 0%nat,
     if Nat.eqb i 0 then nth (length chain - 1) chain 0%nat else nth (i - 1) chain 0%nat) = around chain i).
  { intros i Hi. unfold around. destruct (Nat.eqb_spec i 0) as [->|Hi0].
    - cbn [Nat.add]. rewrite !Nat.mod_small by lia. reflexivity.
    - replace (i + (length chain - 1))%nat with (i - 1 + 1 * length chain)%nat by lia.
      rewrite Nat.mod_add by lia. rewrite (Nat.mod_small (i - 1)) by lia. reflexivity. }
  rewrite seq_S, fold_left_app. cbn [fold_left Nat.add].
  destruct (Nat.eq_dec k 0) as [->|Hk0].
  - cbn [seq fold_left]. unfold ear_scan.
    match goal with |- context [Qlt_bool (angle ?u ?v) ?b] => assert (E : Qlt_bool (angle u v) b = true) by (apply Qlt_bool_iff; apply angle_small); rewrite E end.
    eexists _, 0%nat. split; [|lia]. rewrite A by lia. reflexivity.
  - destruct IH as (best & wi & -> & Hwi); [lia|]. unfold ear_scan.
    match goal with |- context [Qlt_bool (angle ?u ?v) ?b] => destruct (Qlt_bool (angle u v) b) end.
    + eexists _, k. split; [|lia]. rewrite A by lia. reflexivity.
    + eexists _, wi. split; [reflexivity|lia].
Qed.

(** The chain seen from the ear. *)
Lemma around_split chain wi : (2 < length chain)%nat -> (wi < length chain)%nat ->
  exists r, skipn (S wi) chain ++ firstn wi chain = snd (fst (around chain wi)) :: r ++ [snd (around chain wi)].
Proof.
  intros L H. set (k := skipn (S wi) chain ++ firstn wi chain).
  assert (Lk : length k = (length chain - 1)%nat).
  { unfold k. rewrite app_length, skipn_length, firstn_length. lia. }
  assert (N : forall j, (j < length k)%nat -> nth j k 0%nat = nth (Nat.modulo (wi + 1 + j) (length chain)) chain 0%nat).
  { intros j Hj. unfold k. destruct (Nat.lt_ge_cases j (length chain - S wi)) as [Hl|Hl].
    - rewrite app_nth1 by (rewrite skipn_length; lia). rewrite Nat.mod_small by lia.
      rewrite nth_skip. f_equal. lia.
    - rewrite app_nth2 by (rewrite skipn_length; lia). rewrite skipn_length.
      replace (wi + 1 + j)%nat with ((j - (length chain - S wi)) + 1 * length chain)%nat by lia.
      rewrite Nat.mod_add, Nat.mod_small by lia. rewrite nth_first by lia. reflexivity. }
  destruct k as [|a k'] eqn:E; [cbn [length] in Lk; lia|].
  destruct (exists_last (l := k')) as (r & z & ->); [intros ->; cbn [length] in Lk; lia|].
  exists r. unfold around. cbn [fst snd]. f_equal.
  - specialize (N 0%nat). rewrite Nat.add_0_r in N. rewrite <- N by lia. reflexivity.
  - f_equal. f_equal. cbn [length] in Lk. rewrite app_length in Lk. cbn [length] in Lk.
    specialize (N (length r + 1)%nat). cbn [length] in N. rewrite app_length in N. cbn [length] in N.
    replace (wi + (length chain - 1))%nat with (wi + 1 + (length r + 1))%nat by lia. rewrite <- N by lia.
    replace (length r + 1)%nat with (S (length r)) by lia. cbn [nth]. rewrite app_nth2, Nat.sub_diag by lia. reflexivity.
Qed.

Lemma vsum_cons v l : vsum (v :: l) =v= vadd v (vsum l). Proof. reflexivity. Qed.

Lemma area_two l : (length l <= 2)%nat -> area_vector l =v= vzero.
Proof.
  intros H. destruct l as [|x [|y [|z l]]]; [| | |cbn [length] in H; lia].
  - unfold area_vector; cbn [cycle map fold_right]; vring.
  - rewrite area_pvec. cbn [app pvec]. vring.
  - rewrite area_pvec. cbn [app pvec]. vring.
Qed.

(** Three positions in cyclic order. *)
Definition from_chain (chain : list nat) (t : list coord) : Prop :=
  exists i j k, ((i < j < k)%nat \/ (j < k < i)%nat \/ (k < i < j)%nat) /\ incl [i; j; k] chain /\ t = [vtx vs i; vtx vs j; vtx vs k].

Lemma sorted_app (A B : list nat) : StronglySorted lt (A ++ B) <->
  StronglySorted lt A /\ StronglySorted lt B /\ (forall a b, In a A -> In b B -> (a < b)%nat).
Proof.
  induction A as [|x A IH]; cbn [app].
  - split; [intros H; repeat split; [constructor|exact H|easy]|intros (_ & H & _); exact H].
  - split.
    + intros H. apply StronglySorted_inv in H as [H F]. apply IH in H as (H1 & H2 & H3). rewrite Forall_app in F. destruct F as [F1 F2].
      split; [constructor; assumption|]. split; [exact H2|]. intros a b [<-|Ha] Hb; [rewrite Forall_forall in F2; auto|auto].
    + intros (H1 & H2 & H3). apply StronglySorted_inv in H1 as [H1 F]. constructor.
      * apply IH. split; [exact H1|]. split; [exact H2|]. intros a b Ha Hb. apply H3; [now right|exact Hb].
      * rewrite Forall_app. split; [exact F|]. rewrite Forall_forall. intros b Hb. apply H3; [now left|exact Hb].
Qed.

Lemma cyclic_ear (A B r : list nat) p1 p2 p3 : StronglySorted lt (A ++ p1 :: B) -> B ++ A = p2 :: r ++ [p3] ->
  (p1 < p2 < p3)%nat \/ (p2 < p3 < p1)%nat \/ (p3 < p1 < p2)%nat.
Proof.
  intros S E. apply sorted_app in S as (SA & SB & AB). apply StronglySorted_inv in SB as [SB FB]. rewrite Forall_forall in FB.
  assert (Ends : forall l, StronglySorted lt l -> l = p2 :: r ++ [p3] -> (p2 < p3)%nat).
  { intros l Sl ->. apply StronglySorted_inv in Sl as [_ F]. rewrite Forall_forall in F. apply F, in_app_iff. right. now left. }
  destruct B as [|b B]; [|destruct A as [|a A]].
  - right; left. cbn [app] in E. split; [now apply (Ends A)|]. apply AB; [rewrite E; right; apply in_app_iff; right; now left|now left].
  - left. rewrite app_nil_r in E. split; [|now apply (Ends (b :: B))]. apply FB. rewrite E. now left.
  - right; right. cbn [app] in E. injection E as -> E. split; [|apply FB; now left].
    destruct (exists_last (l := a :: A)) as (A' & z & EA); [easy|]. rewrite EA, app_assoc in E. apply app_inj_tail in E as [_ ->].
    apply AB; [rewrite EA; apply in_app_iff; right; now left|now left].
Qed.

Lemma sorted_NoDup l : StronglySorted lt l -> NoDup l.
Proof.
  induction 1 as [|a l H IH F]; constructor; [|exact IH]. intros Hi. rewrite Forall_forall in F. specialize (F a Hi). lia.
Qed.

Lemma seq_sorted n : forall m, StronglySorted lt (seq m n).
Proof.
  induction n as [|n IH]; intros m; cbn [seq]; constructor; [apply IH|]. rewrite Forall_forall. intros x Hx. apply in_seq in Hx. lia.
Qed.

Lemma ears_spec fuel : forall chain p, StronglySorted lt chain -> (length chain <= fuel + 2)%nat ->
  length (ears angle vs fuel chain p) = (length chain - 2)%nat /\
  (forall t, In t (ears angle vs fuel chain p) -> from_chain chain t) /\
  vsum (map area_vector (ears angle vs fuel chain p)) =v= area_vector (map (vtx vs) chain).
Proof.
  induction fuel as [|fuel IH]; intros chain p SS Hf; cbn [ears].
  - split; [cbn; lia|]. split; [easy|]. cbn [map vsum fold_right]. rewrite area_two by (rewrite map_length; lia). reflexivity.
  - destruct (Nat.ltb_spec 2 (length chain)) as [L|L].
    2:{ split; [cbn; lia|]. split; [easy|]. cbn [map vsum fold_right]. rewrite area_two by (rewrite map_length; lia). reflexivity. }
    destruct (scan_spec chain p (length chain) L ltac:(lia)) as (best & wi & -> & Hwi).
    destruct (around_split chain wi L Hwi) as (r & Hr).
    set (a := around chain wi) in *. destruct a as [[p1 p2] p3] eqn:Ea. cbn [fst snd] in Hr.
    assert (Hp1 : p1 = nth wi chain 0%nat) by (unfold a, around in Ea; congruence).
    assert (Hsp : chain = firstn wi chain ++ p1 :: skipn (S wi) chain).
    { rewrite <- (firstn_skipn wi chain) at 1. f_equal. rewrite Hp1. apply skipn_nth_error. now apply nth_error_nth'. }
    set (chain' := firstn wi chain ++ skipn (S wi) chain).
    assert (SC := SS). rewrite Hsp in SC.
    assert (SS' : StronglySorted lt chain').
    { apply sorted_app in SC as (S1 & S2 & S3). apply StronglySorted_inv in S2 as [S2 _]. apply sorted_app.
      split; [exact S1|]. split; [exact S2|]. intros x y Hx Hy. apply S3; [exact Hx|now right]. }
    assert (Lc : length chain' = (length chain - 1)%nat).
    { unfold chain'. rewrite app_length, skipn_length, firstn_length. lia. }
    destruct (IH chain' (p1, p2, p3) SS' ltac:(lia)) as (I1 & I2 & I3).
    assert (Hinc : incl chain' chain). { intros x Hx. rewrite Hsp. unfold chain' in Hx. apply in_app_iff in Hx as [Hx|Hx]; apply in_app_iff; cbn; auto. }
    assert (Hin' : forall x, In x chain' <-> In x (p2 :: r ++ [p3])).
    { intros x. rewrite <- Hr. unfold chain'. rewrite !in_app_iff. tauto. }
    split; [|split].
    + cbn [length]. rewrite I1. lia.
    + intros t [<-|Ht].
      * exists p1, p2, p3. split; [|split; [|reflexivity]].
        -- exact (cyclic_ear _ _ r p1 p2 p3 SC Hr).
        -- intros x [<-|[<-|[<-|[]]]].
           ++ rewrite Hp1. apply nth_In. exact Hwi.
           ++ apply Hinc, Hin'. apply in_eq.
           ++ apply Hinc, Hin'. right. apply in_app_iff. right. apply in_eq.
      * destruct (I2 t Ht) as (i & j & k & Q1 & Q2 & Q3). exists i, j, k. split; [exact Q1|]. split; [|exact Q3].
        eapply incl_tran; eassumption.
    + cbn [map]. rewrite vsum_cons, I3.
      transitivity (area_vector (map (vtx vs) (firstn wi chain ++ p1 :: skipn (S wi) chain))); [|rewrite <- Hsp; reflexivity]. unfold chain'.
      rewrite (map_app (vtx vs) (firstn wi chain) (p1 :: _)), (area_rotate (map (vtx vs) (firstn wi chain))), <- map_app.
      rewrite (map_app (vtx vs) (firstn wi chain) (skipn _ _)), (area_rotate (map (vtx vs) (firstn wi chain))), <- map_app.
      cbn [app]. rewrite Hr. cbn [map]. rewrite !map_app. cbn [map].
      rewrite (area_ear (vtx vs p1) (vtx vs p2) (vtx vs p3)). reflexivity.
Qed.
End Ears.

Lemma closed_vtx corners i : (i < length corners)%nat -> vtx (closed_polyline corners) i = nth i corners vzero.
Proof.
  intros H. unfold vtx, closed_polyline. rewrite app_length. rewrite Nat.mod_small by lia. now rewrite app_nth1.
Qed.

Lemma closed_length corners : corners <> [] -> length (closed_polyline corners) = S (length corners).
Proof. unfold closed_polyline. destruct corners as [|x r]; [easy|]. intros _. rewrite app_length. cbn. lia. Qed.

Lemma map_closed corners : map (vtx (closed_polyline corners)) (seq 0 (length corners)) = corners.
Proof.
  apply (nth_ext _ _ vzero vzero); [now rewrite map_length, seq_length|].
  intros i Hi. rewrite map_length, seq_length in Hi.
  rewrite (nth_indep _ _ (vtx (closed_polyline corners) 0)) by (rewrite map_length, seq_length; exact Hi).
  rewrite map_nth, seq_nth by exact Hi. now apply closed_vtx.
Qed.

Lemma triangulate_spec angle corners : (forall u v, angle u v < 6284 # 1000) -> (3 <= length corners)%nat ->
  let ts := triangulate angle (closed_polyline corners) in
  length ts = (length corners - 2)%nat /\
  (forall t, In t ts -> exists i j k, (i < length corners)%nat /\ (j < length corners)%nat /\ (k < length corners)%nat /\
     ((i < j < k)%nat \/ (j < k < i)%nat \/ (k < i < j)%nat) /\ t = [nth i corners vzero; nth j corners vzero; nth k corners vzero]) /\
  vsum (map area_vector ts) =v= area_vector corners.
Proof.
  intros Ha L ts. unfold ts, triangulate.
  assert (Hne : corners <> []) by (intros ->; cbn in L; lia).
  rewrite closed_length by exact Hne. replace (S (length corners) - 1)%nat with (length corners) by lia.
  destruct (ears_spec angle Ha (closed_polyline corners) (S (length corners)) (seq 0 (length corners)) (0, 1, 2)%nat) as (I1 & I2 & I3).
  - apply seq_sorted.
  - rewrite seq_length. lia.
  - rewrite seq_length in I1. split; [exact I1|]. split.
    + intros t Ht. destruct (I2 t Ht) as (i & j & k & Q1 & Q2 & ->).
      assert (B : forall x, In x [i; j; k] -> (x < length corners)%nat) by (intros x Hx; apply Q2, in_seq in Hx; lia).
      assert (Bi := B i ltac:(cbn; auto)). assert (Bj := B j ltac:(cbn; auto)). assert (Bk := B k ltac:(cbn; auto)).
      exists i, j, k. rewrite !closed_vtx by assumption.
      auto.
    + rewrite I3, map_closed. reflexivity.
Qed.

Lemma area_tri a b c : area_vector [a; b; c] =v= vscale (1#2) (cross (vsub b a) (vsub c a)).
Proof. unfold area_vector. cbn [cycle app combine map fst snd fold_right]. repeat split; cbn [vadd vsub vscale cross vzero cx cy cz]; ring. Qed.

(** In a convex polygon every triangle has the orientation of the polygon. *)
Lemma triangulate_convex angle corners n : (forall u v, angle u v < 6284 # 1000) -> (3 <= length corners)%nat ->
  convex n corners -> forall t, In t (triangulate angle (closed_polyline corners)) -> 0 < dot n (area_vector t).
Proof.
  intros Ha L C t Ht. destruct (triangulate_spec angle corners Ha L) as (_ & I2 & _).
  destruct (I2 t Ht) as (i & j & k & Hi & Hj & Hk & O & ->). rewrite area_tri.
  assert (P : forall i j k, (i < j < k)%nat -> (k < length corners)%nat ->
    0 < dot n (vscale (1#2) (cross (vsub (nth j corners vzero) (nth i corners vzero)) (vsub (nth k corners vzero) (nth i corners vzero))))).
  { intros i' j' k' O' K'. rewrite dot_vscale. specialize (C i' j' k' O' K'). lra. }
  assert (R : forall a b c : coord, cross (vsub b a) (vsub c a) =v= cross (vsub c b) (vsub a b)) by (intros; vring).
  destruct O as [O|[O|O]].
  - now apply P.
  - rewrite R. apply P; [lia|exact Hi].
  - rewrite R, R. apply P; [lia|exact Hj].
Qed.

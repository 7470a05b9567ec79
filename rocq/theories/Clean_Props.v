(** C95: cleaning of surfaces. *)
From Coq Require Import ZArith List Bool QArith Reals Qreals Lia Lqa Lra.
From Verif Require Import Prelude Vec ZMap Mesh_Model Mesh_Proofs HashGrid_Model HashGrid_Proofs Merge_Model Merge_Proofs Surf_Model Surf_Spec Surf_Proofs Clean_Model.
Import ListNotations.
Open Scope Z_scope.

(** ** Vocabulary *)
Definition distance (a b : coord) : R := sqrt (Q2R (norm2 (vsub a b))).
Definition area_of (s : surf) (id : Z) : R := (sqrt (Q2R (norm2 (cross (vsub (corner s id 1) (corner s id 0)) (vsub (corner s id 2) (corner s id 0))))) / 2)%R.
(** The middle of a facet. *)
Definition middle (s : surf) (id : Z) : coord := vscale (1 # 3) (vadd (vadd (corner s id 0) (corner s id 1)) (corner s id 2)).
(** Every neighbour named by an edge exists. *)
Definition no_ghosts (s : surf) : Prop := forall id k, In id (u_ids s) -> across s id k = -1 \/ In (across s id k) (u_ids s).

Lemma get_in s id : well_stored s -> In id (u_ids s) -> u_get s id = Ok (facet s id).
Proof. intros W I. apply u_get_stored. now apply well_stored_in. Qed.

(** ** Removing a facet *)
Lemma remove_ok s id : well_stored s -> In id (u_ids s) -> exists s', u_remove s id = Ok s' /\ well_stored s' /\ u_ids s' = filter (fun j => negb (j =? id)) (u_ids s) /\ forall j, j <> id -> facet s' j = facet s j.
Proof.
  intros (Hnd & Hs & Hk & Hp) I. unfold u_remove. destruct (erase_first id (u_ids s)) as [l|] eqn:E; [|apply erase_first_None in E; contradiction].
  apply erase_first_Some in E; [|assumption]. destruct E as [_ ->]. eexists. split; [reflexivity|]. cbn [u_ids u_map]. split; [|split; [reflexivity|]].
  - split; [now apply NoDup_filter_ids|]. split; [now apply zsorted_delete|]. split.
    + intros j. cbn [u_ids u_map]. rewrite filter_In, zlookup_delete, Hk. destruct (Z.eqb_spec j id); cbn; intuition congruence.
    + intros j Hj. cbn [u_ids] in Hj. apply filter_In in Hj. now apply Hp.
  - intros j Hj. unfold facet. cbn [u_map]. rewrite zlookup_delete. destruct (Z.eqb_spec j id); [contradiction|reflexivity].
Qed.

(** ** Invalid facets *)
Lemma filter_ext_id {A} (p q : A -> bool) l : (forall x, In x l -> p x = q x) -> filter p l = filter q l.
Proof. intros H. induction l as [|a l IH]; [reflexivity|]. cbn [filter]. rewrite (H a) by now left. rewrite IH; [reflexivity|]. intros x Hx. apply H. now right. Qed.
Lemma filter_all {A} (p : A -> bool) l : (forall x, In x l -> p x = true) -> filter p l = l.
Proof. intros H. induction l as [|a l IH]; [reflexivity|]. cbn [filter]. rewrite (H a) by now left. f_equal. apply IH. intros x Hx. apply H. now right. Qed.
Lemma remove_split (pre rest : list Z) a : NoDup (pre ++ a :: rest) -> filter (fun j => negb (j =? a)) (pre ++ a :: rest) = pre ++ rest.
Proof.
  intros H. rewrite filter_app. cbn [filter]. rewrite Z.eqb_refl. cbn [negb]. assert (Na : ~ In a (pre ++ rest)) by now apply NoDup_remove_2.
  f_equal; apply filter_all; intros x Hx; apply negb_true_iff, Z.eqb_neq; intros ->; apply Na, in_app_iff; auto.
Qed.
Lemma invalid_loop_ok tol fl : forall rest pre n s, well_stored s -> u_ids s = pre ++ rest -> (length rest <= n)%nat ->
  exists s', invalid_loop tol fl n (zlen pre) s = Ok s' /\ well_stored s' /\ u_ids s' = pre ++ filter (fun id => negb (invalid tol fl id (facet s id))) rest /\ forall j, In j (u_ids s') -> facet s' j = facet s j.
Proof.
  induction rest as [|a rest IH]; intros pre n s W E Hn.
  - exists s. rewrite app_nil_r in E. cbn [filter]. rewrite app_nil_r. split; [|auto]. destruct n; cbn [invalid_loop]; unfold u_size; rewrite E, Z.ltb_irrefl; reflexivity.
  - destruct n as [|n]; [cbn in Hn; lia|]. cbn [invalid_loop]. unfold u_size. rewrite E. assert (L : zlen pre <? zlen (pre ++ a :: rest) = true) by (apply Z.ltb_lt; unfold zlen; rewrite app_length; cbn [length]; lia). rewrite L.
    unfold u_id, vec_at. rewrite E. assert (Z0 : zlen pre <? 0 = false) by (apply Z.ltb_ge; unfold zlen; lia).
    assert (Nth : nth_error (pre ++ a :: rest) (Z.to_nat (zlen pre)) = Some a) by (unfold zlen; rewrite Nat2Z.id, nth_error_app2, Nat.sub_diag by lia; reflexivity).
    assert (Ia : In a (u_ids s)) by (rewrite E; apply in_app_iff; right; now left).
    rewrite Z0, Nth. cbn [bind]. rewrite (get_in s a W Ia). cbn [bind filter]. destruct (invalid tol fl a (facet s a)) eqn:Ev; cbn [negb].
    + destruct (remove_ok s a W Ia) as (s1 & R1 & W1 & I1 & F1). rewrite R1. cbn [bind]. rewrite E, remove_split in I1 by (rewrite <- E; apply W).
      assert (Nr : forall j, In j rest -> j <> a) by (intros j Hj ->; assert (ND : NoDup (pre ++ a :: rest)) by (rewrite <- E; apply W); apply NoDup_remove_2 in ND; apply ND, in_app_iff; auto).
      assert (Np : forall j, In j pre -> j <> a) by (intros j Hj ->; assert (ND : NoDup (pre ++ a :: rest)) by (rewrite <- E; apply W); apply NoDup_remove_2 in ND; apply ND, in_app_iff; auto).
      destruct (IH pre n s1 W1 I1 ltac:(cbn in Hn; lia)) as (s' & A1 & A2 & A3 & A4). exists s'. split; [exact A1|]. split; [exact A2|]. split.
      * rewrite A3. f_equal. apply filter_ext_id. intros x Hx. rewrite F1 by now apply Nr. reflexivity.
      * intros j Hj. rewrite (A4 j Hj). apply F1. rewrite A3 in Hj. apply in_app_iff in Hj. destruct Hj as [Hj|Hj]; [now apply Np|]. apply filter_In in Hj. now apply Nr.
    + assert (Zl : zlen pre + 1 = zlen (pre ++ [a])) by (unfold zlen; rewrite app_length; cbn [length]; lia). rewrite Zl.
      destruct (IH (pre ++ [a]) n s W ltac:(rewrite <- app_assoc; exact E) ltac:(cbn in Hn; lia)) as (s' & A1 & A2 & A3 & A4). exists s'. split; [exact A1|]. split; [exact A2|]. split; [rewrite A3, <- app_assoc; reflexivity|exact A4].
Qed.

(** ** C95 *)
(** The statistics are the tight bounding box of all corners. *)
Definition bounds_corners (s : surf) (f : coord -> Q) (lo hi : Q) : Prop :=
  (forall id k, In id (u_ids s) -> (lo <= f (corner s id k) <= hi)%Q) /\ (exists id k, In id (u_ids s) /\ f (corner s id k) = lo) /\ (exists id k, In id (u_ids s) /\ f (corner s id k) = hi).
Definition tight_on (pts : list coord) (f : coord -> Q) (lo hi : Q) : Prop :=
  (forall p, In p pts -> (lo <= f p <= hi)%Q) /\ (exists p, In p pts /\ f p = lo) /\ (exists p, In p pts /\ f p = hi).
Definition boxed (pts : list coord) (b : coord * coord) : Prop :=
  tight_on pts cx (cx (snd b)) (cx (fst b)) /\ tight_on pts cy (cy (snd b)) (cy (fst b)) /\ tight_on pts cz (cz (snd b)) (cz (fst b)).
Lemma tight_widen pts f lo hi p : tight_on pts f lo hi -> tight_on (p :: pts) f (qmin lo (f p)) (qmax hi (f p)).
Proof.
  intros (A & (x & Ix & Ex) & (y & Iy & Ey)). destruct (qmin_spec lo (f p)) as [[L1 L2] L3]. destruct (qmax_spec hi (f p)) as [[U1 U2] U3]. split; [|split].
  - intros q [<-|Hq]; [split; assumption|]. destruct (A q Hq). split; [now apply Qle_trans with lo|now apply Qle_trans with hi].
  - destruct L3 as [->| ->]; [exists x; split; [now right|exact Ex]|exists p; split; [now left|reflexivity]].
  - destruct U3 as [->| ->]; [exists y; split; [now right|exact Ey]|exists p; split; [now left|reflexivity]].
Qed.
Lemma boxed_widen pts b p : boxed pts b -> boxed (p :: pts) (widen b p).
Proof. intros (A & B & C). split; [exact (tight_widen pts cx _ _ p A)|]. split; [exact (tight_widen pts cy _ _ p B)|exact (tight_widen pts cz _ _ p C)]. Qed.
Lemma corner_in_three s id k : In (corner s id k) [corner s id 0; corner s id 1; corner s id 2].
Proof. unfold corner. destruct (tget_cases k) as [H|[H|H]]; [rewrite (tget_mod _ k 0)|rewrite (tget_mod _ k 1)|rewrite (tget_mod _ k 2)]; auto; cbn [In]; auto. Qed.

Theorem C95_statistics : forall s old, well_stored s -> u_ids s <> [] ->
  exists hi lo, statistics s old = Ok (hi, lo) /\ bounds_corners s cx (cx lo) (cx hi) /\ bounds_corners s cy (cy lo) (cy hi) /\ bounds_corners s cz (cz lo) (cz hi).
Proof.
  intros s old W Hne. unfold statistics. destruct (u_ids s) as [|first l] eqn:E; [congruence|]. assert (If : In first (u_ids s)) by (rewrite E; now left). rewrite (get_in s first W If). cbn [bind].
  set (F := fun (b : coord * coord) id => f <- u_get s id ;; Ok (fold_left (fun b j => widen b (tget (sf_v f) j)) [0; 1; 2] b)).
  assert (Go : forall ids pts b, (forall id, In id ids -> In id (u_ids s)) -> boxed pts b ->
    exists b' pts', foldM F ids b = Ok b' /\ boxed pts' b' /\ (forall p, In p pts -> In p pts') /\ (forall id k, In id ids -> In (corner s id k) pts') /\ (forall p, In p pts' -> In p pts \/ exists id k, In id ids /\ p = corner s id k)).
  { induction ids as [|id ids IH]; intros pts b Hin Hb.
    - exists b, pts. split; [reflexivity|]. split; [exact Hb|]. split; [auto|]. split; [intros ? ? []|auto].
    - assert (St : F b id = Ok (widen (widen (widen b (corner s id 0)) (corner s id 1)) (corner s id 2))) by (unfold F; rewrite (get_in s id W (Hin id (or_introl eq_refl))); reflexivity).
      cbn [foldM]. rewrite St. cbn [bind]. destruct (IH (corner s id 2 :: corner s id 1 :: corner s id 0 :: pts) _ ltac:(intros j Hj; apply Hin; now right) ltac:(apply boxed_widen, boxed_widen, boxed_widen; exact Hb)) as (b' & pts' & A1 & A2 & A3 & A4 & A5).
      exists b', pts'. split; [exact A1|]. split; [exact A2|]. split; [intros p Hp; apply A3; cbn [In]; auto|]. split.
      + intros j k [<-|Hj]; [|now apply A4]. apply A3. destruct (corner_in_three s id k) as [<-|[<-|[<-|[]]]]; cbn [In]; auto.
      + intros p Hp. destruct (A5 p Hp) as [Hq|(j & k & Hj & ->)]; [|right; exists j, k; split; [now right|reflexivity]]. cbn [In] in Hq.
        destruct Hq as [<-|[<-|[<-|Hq]]]; [right; exists id, 2; split; [now left|reflexivity]|right; exists id, 1; split; [now left|reflexivity]|right; exists id, 0; split; [now left|reflexivity]|now left]. }
  destruct (Go (first :: l) [corner s first 0] (corner s first 0, corner s first 0)) as (b' & pts' & A1 & (B1 & B2 & B3) & A3 & A4 & A5).
  - intros id Hid. now rewrite E.
  - assert (One : forall f, tight_on [corner s first 0] f (f (corner s first 0)) (f (corner s first 0))) by (intros f; split; [intros p [<-|[]]; split; apply Qle_refl|]; split; exists (corner s first 0); split; auto; now left).
    split; [apply (One cx)|]. split; [apply (One cy)|apply (One cz)].
  - destruct b' as [hi lo]. exists hi, lo. split; [exact A1|]. cbn [fst snd] in B1, B2, B3.
    assert (Cv : forall f lo hi, tight_on pts' f lo hi -> bounds_corners s f lo hi).
    { intros f lo0 hi0 (T1 & (p & Ip & Ep) & (q & Iq & Eq)). assert (Sr : forall p, In p pts' -> exists id k, In id (u_ids s) /\ p = corner s id k).
      { intros r Hr. destruct (A5 r Hr) as [[<-|[]]|(id & k & Hid & ->)]; [exists first, 0; auto|exists id, k; split; [now rewrite E|reflexivity]]. }
      split; [intros id k Hid; apply T1, A4; now rewrite <- E|]. split; [destruct (Sr p Ip) as (id & k & I & ->)|destruct (Sr q Iq) as (id & k & I & ->)]; exists id, k; auto. }
    auto.
Qed.
Print Assumptions C95_statistics.
Example C95_statistics_case : exists hi lo, statistics (u_add (u_add u_empty 4 (SFacet (Coord 1 0 0, Coord 0 2 0, Coord 5 5 (-1)) (-1, -1, -1) (-1, -1, -1))) 2 (SFacet (Coord 0 0 3, Coord 0 (-2) 0, Coord 1 1 1) (-1, -1, -1) (-1, -1, -1))) (vzero, vzero) = Ok (hi, lo)
  /\ hi = Coord 5 5 3 /\ lo = Coord 0 (-2) (-1).
Proof. eexists. eexists. split; [vm_compute; reflexivity|]. split; reflexivity. Qed.

(** checkEdges() marks as naked exactly the edges without neighbour, whatever was marked before. *)
Lemma check_edge_ok s id k : well_stored s -> no_ghosts s -> In id (u_ids s) -> check_edge s (facet s id) k = Ok (across s id k =? -1).
Proof.
  intros W G I. unfold check_edge. fold (across s id k). destruct (Z.eqb_spec (across s id k) (-1)); [reflexivity|]. destruct (G id k I) as [H|H]; [contradiction|]. now rewrite (get_in s _ W H).
Qed.
Theorem C95_edges : forall s fl, well_stored s -> no_ghosts s ->
  exists fl', check_edges s fl = Ok fl' /\ forall id k, (In id (u_ids s) -> naked fl' id k = (across s id k =? -1)) /\ (~ In id (u_ids s) -> naked fl' id k = naked fl id k).
Proof.
  intros s fl W G. unfold check_edges. set (F := fun (fl : flags) id => f <- u_get s id ;; a <- check_edge s f 0 ;; b <- check_edge s f 1 ;; c <- check_edge s f 2 ;; Ok (zinsert id (a, b, c) fl)).
  assert (Go : forall ids fl, (forall id, In id ids -> In id (u_ids s)) -> exists fl', foldM F ids fl = Ok fl' /\ forall id k, (In id ids -> naked fl' id k = (across s id k =? -1)) /\ (~ In id ids -> naked fl' id k = naked fl id k)).
  { clear fl. induction ids as [|a ids IH]; intros fl Hin; [exists fl; split; [reflexivity|]; intros id k; split; [intros []|reflexivity]|].
    assert (Ia : In a (u_ids s)) by (apply Hin; now left).
    assert (St : F fl a = Ok (zinsert a (across s a 0 =? -1, across s a 1 =? -1, across s a 2 =? -1) fl)) by (unfold F; rewrite (get_in s a W Ia); cbn [bind]; rewrite !check_edge_ok by assumption; reflexivity).
    cbn [foldM]. rewrite St. cbn [bind]. set (fl1 := zinsert a _ fl). destruct (IH fl1 ltac:(intros j Hj; apply Hin; now right)) as (fl' & A1 & A2). exists fl'. split; [exact A1|]. intros id k. destruct (A2 id k) as [B1 B2].
    assert (N1 : naked fl1 id k = if id =? a then (across s a k =? -1) else naked fl id k).
    { unfold naked, fl1. rewrite zlookup_insert. destruct (id =? a); [|reflexivity]. unfold across. destruct (tget_cases k) as [H|[H|H]]; [rewrite (tget0 _ _ _ k), (tget_mod _ k 0)|rewrite (tget1 _ _ _ k), (tget_mod _ k 1)|rewrite (tget2 _ _ _ k), (tget_mod _ k 2)]; auto. }
    split.
    - intros Hid. destruct (in_dec Z.eq_dec id ids) as [I|I]; [now apply B1|]. rewrite (B2 I), N1. destruct Hid as [->|Hid]; [now rewrite Z.eqb_refl|contradiction].
    - intros Hid. rewrite B2 by (intros X; apply Hid; now right). rewrite N1. destruct (Z.eqb_spec id a); [subst; exfalso; apply Hid; now left|reflexivity]. }
  apply Go. auto.
Qed.
Print Assumptions C95_edges.

(** removeInvalidFacets() keeps, in their order and unchanged, exactly the facets whose sides are all at least as long as the tolerance and which have an edge not marked as naked. *)
Theorem C95_invalid : forall s tol fl, well_stored s ->
  exists s' keep, remove_invalid tol fl s = Ok s' /\ well_stored s' /\ u_ids s' = filter keep (u_ids s) /\
    (forall id, In id (u_ids s') <-> In id (u_ids s) /\ (forall k, (Q2R tol <= distance (corner s id (k + 1)) (corner s id k))%R) /\ exists k, 0 <= k < 3 /\ naked fl id k = false) /\
    (forall id, In id (u_ids s') -> facet s' id = facet s id).
Proof.
  intros s tol fl W. destruct (invalid_loop_ok tol fl (u_ids s) [] (length (u_ids s)) s W eq_refl (le_n _)) as (s' & A1 & A2 & A3 & A4).
  exists s', (fun id => negb (invalid tol fl id (facet s id))). split; [exact A1|]. split; [exact A2|]. split; [exact A3|]. split; [|exact A4].
  intros id. rewrite A3. cbn [app]. rewrite filter_In. unfold invalid.
  assert (Sd : forall k, len (side (facet s id) k) = distance (corner s id (k + 1)) (corner s id k)) by reflexivity. rewrite !Sd.
  assert (Per : forall k l, k mod 3 = l mod 3 -> distance (corner s id (k + 1)) (corner s id k) = distance (corner s id (l + 1)) (corner s id l)).
  { intros k l H. rewrite (corner_mod s id k l H), (corner_mod s id (k + 1) (l + 1)); [reflexivity|]. rewrite (Z.add_mod k), (Z.add_mod l), H by lia. reflexivity. }
  assert (Per' : forall k, distance (corner s id (k + 1)) (corner s id k) = distance (corner s id (0 + 1)) (corner s id 0) \/ distance (corner s id (k + 1)) (corner s id k) = distance (corner s id (1 + 1)) (corner s id 1) \/ distance (corner s id (k + 1)) (corner s id k) = distance (corner s id (2 + 1)) (corner s id 2)).
  { intros k. destruct (tget_cases k) as [H|[H|H]]; [left|right; left|right; right]; now apply Per. }
  set (d0 := distance (corner s id (0 + 1)) (corner s id 0)) in *. set (d1 := distance (corner s id (1 + 1)) (corner s id 1)) in *. set (d2 := distance (corner s id (2 + 1)) (corner s id 2)) in *.
  split.
  - intros [I H]. split; [exact I|]. destruct (Rlt_dec d0 (Q2R tol)) as [|L0]; [discriminate H|]. destruct (Rlt_dec d1 (Q2R tol)) as [|L1]; [discriminate H|]. destruct (Rlt_dec d2 (Q2R tol)) as [|L2]; [discriminate H|]. cbn [orb] in H. split.
    + intros k. destruct (Per' k) as [->|[->| ->]]; lra.
    + destruct (naked fl id 0) eqn:N0; [|exists 0; split; [lia|assumption]]. destruct (naked fl id 1) eqn:N1; [|exists 1; split; [lia|assumption]]. destruct (naked fl id 2) eqn:N2; [discriminate H|exists 2; split; [lia|assumption]].
  - intros (I & Hd & k & Hk & Hn). split; [exact I|]. pose proof (Hd 0) as D0. pose proof (Hd 1) as D1. pose proof (Hd 2) as D2. fold d0 in D0. fold d1 in D1. fold d2 in D2.
    destruct (Rlt_dec d0 (Q2R tol)); [lra|]. destruct (Rlt_dec d1 (Q2R tol)); [lra|]. destruct (Rlt_dec d2 (Q2R tol)); [lra|]. cbn [orb].
    assert (k = 0 \/ k = 1 \/ k = 2) as [->|[->| ->]] by lia; rewrite Hn; rewrite ?andb_false_r; reflexivity.
Qed.
Print Assumptions C95_invalid.

(** After checkEdges() those stay which have long enough sides and at least one neighbour. *)
Theorem C95_clean : forall s tol fl, well_stored s -> no_ghosts s ->
  exists s', (fl' <- check_edges s fl ;; remove_invalid tol fl' s) = Ok s' /\ well_stored s' /\
    (forall id, In id (u_ids s') <-> In id (u_ids s) /\ (forall k, (Q2R tol <= distance (corner s id (k + 1)) (corner s id k))%R) /\ exists k, across s id k <> -1) /\
    (forall id, In id (u_ids s') -> facet s' id = facet s id).
Proof.
  intros s tol fl W G. destruct (C95_edges s fl W G) as (fl' & E1 & E2). rewrite E1. cbn [bind]. destruct (C95_invalid s tol fl' W) as (s' & keep & A1 & A2 & A3 & A4 & A5). exists s'. split; [exact A1|]. split; [exact A2|]. split; [|exact A5].
  intros id. rewrite A4. split; intros (I & D & k & H); (split; [exact I|]; split; [exact D|]).
  - exists k. destruct H as [_ H]. rewrite (proj1 (E2 id k) I) in H. now apply Z.eqb_neq.
  - exists (k mod 3). split; [apply Z.mod_pos_bound; lia|]. rewrite (proj1 (E2 id (k mod 3)) I). apply Z.eqb_neq. rewrite (across_mod s id (k mod 3) k); [exact H|apply Z.mod_mod; lia].
Qed.
Print Assumptions C95_clean.

(** ** Duplicates *)
Lemma sqrt_Q_pos q : (0 <= q)%Q -> (0 <= Q2R q)%R.
Proof. intros H. apply Qle_Rle in H. rewrite RMicromega.Q2R_0 in H. exact H. Qed.
Lemma Qlt_bool_R a b : Qlt_bool a b = true <-> (Q2R a < Q2R b)%R.
Proof. rewrite Qlt_bool_iff. split; [apply Qlt_Rlt|apply Rlt_Qlt]. Qed.
Lemma root_below_spec a b t : (0 <= a)%Q -> (0 <= b)%Q -> (0 < t)%Q -> (root_below a b t = true <-> (sqrt (Q2R a) < sqrt (Q2R b) + Q2R t)%R).
Proof.
  intros Ha Hb Ht. unfold root_below. apply sqrt_Q_pos in Ha. apply sqrt_Q_pos in Hb. apply Qlt_Rlt in Ht. rewrite RMicromega.Q2R_0 in Ht.
  rewrite orb_true_iff, !Qlt_bool_R, !Q2R_mult, !Q2R_minus, Q2R_mult, RMicromega.Q2R_0. replace (Q2R 4) with 4%R by (unfold Q2R; cbn; lra).
  set (A := Q2R a) in *. set (B := Q2R b) in *. set (T := Q2R t) in *. pose proof (sqrt_pos A) as PA. pose proof (sqrt_pos B) as PB. pose proof (sqrt_sqrt A Ha) as SA. pose proof (sqrt_sqrt B Hb) as SB.
  set (x := sqrt A) in *. set (y := sqrt B) in *. rewrite <- SA, <- SB. clearbody x y A B T. clear SA SB Ha Hb.
  assert (Key : (x < y + T <-> x * x - y * y - T * T < 2 * T * y)%R) by (split; intros H; nra). rewrite Key. set (d := (x * x - y * y - T * T)%R). assert (P : (0 <= T * y)%R) by (apply Rmult_le_pos; lra). clearbody d. replace (4 * (T * T) * (y * y))%R with ((2 * (T * y)) * (2 * (T * y)))%R by ring. replace (2 * T * y)%R with (2 * (T * y))%R by ring. set (e := (2 * (T * y))%R). assert (Pe : (0 <= e)%R) by (unfold e; lra). clearbody e. split.
  - intros [H|H]; [lra|]. destruct (Rlt_dec d e) as [|N]; [assumption|]. exfalso. assert (e * e <= d * d)%R by (apply Rmult_le_compat; lra). lra.
  - intros H. destruct (Rlt_dec d 0); [now left|right]. apply Rmult_le_0_lt_compat; lra.
Qed.
(** The comparison made without roots is that of the areas. *)
Theorem C95_areas : forall s a b tol, ~ (tol == 0)%Q -> (same_area tol (facet s a) (facet s b) = true <-> (Rabs (area_of s a - area_of s b) < Q2R (tol * tol))%R).
Proof.
  intros s a b tol Ht. unfold same_area. assert (Tp : (0 < 2 * (tol * tol))%Q) by (destruct (Qlt_le_dec 0 tol); [Lqa.nra|assert (tol < 0)%Q by (apply Qle_lteq in q; destruct q as [q|q]; [exact q|exfalso; now apply Ht]); Lqa.nra]).
  assert (T1 : Qlt_bool 0 (2 * (tol * tol)) = true) by now apply Qlt_bool_iff. rewrite T1. cbn [andb]. rewrite andb_true_iff, !root_below_spec by (try exact Tp; apply norm2_nonneg).
  unfold area_of. fold (area_square (facet s a)). fold (area_square (facet s b)). unfold area_square, corner.
  rewrite !Q2R_mult. replace (Q2R 2) with 2%R by (unfold Q2R; cbn; lra). set (x := sqrt _). set (y := sqrt _). set (t := (Q2R tol * Q2R tol)%R). split.
  - intros [H1 H2]. apply Rabs_def1; lra.
  - intros H. apply Rabs_def2 in H. lra.
Qed.
Print Assumptions C95_areas.

Lemma singleton (l : list Z) a : NoDup l -> (forall k, In k l <-> k = a) -> l = [a].
Proof.
  intros N H. destruct l as [|x l]; [exfalso; apply (proj2 (H a) eq_refl)|]. assert (x = a) by (apply H; now left). subst x. destruct l as [|y l]; [reflexivity|]. assert (y = a) by (apply H; cbn [In]; auto). subst y. exfalso. inversion_clear N as [|? ? N1 N2]. apply N1. now left.
Qed.
Lemma dup_loop_ok g tol s : well_stored s -> (forall id, In id (u_ids s) -> grid_find g [] (facet_centre (facet s id)) tol = Ok [id]) ->
  forall n i, 0 <= i -> zlen (u_ids s) <= i + Z.of_nat n -> dup_loop g tol n i s = Ok s.
Proof.
  intros W Hg. induction n as [|n IH]; intros i Hi Hn; cbn [dup_loop]; unfold u_size; destruct (Z.ltb_spec i (zlen (u_ids s))); try reflexivity; [lia|].
  unfold u_id, vec_at. destruct (Z.ltb_spec i 0); [lia|]. destruct (nth_error (u_ids s) (Z.to_nat i)) as [a|] eqn:E; [|apply nth_error_None in E; unfold zlen in *; lia].
  cbn [bind]. assert (Ia : In a (u_ids s)) by (eapply nth_error_In; exact E). rewrite (get_in s a W Ia). cbn [bind]. rewrite (Hg a Ia). cbn [bind tl foldM fst snd]. apply IH; lia.
Qed.
(** removeDuplicateFacets() leaves a surface alone when the middles of its facets are farther apart than the tolerance. *)
Theorem C95_distinct : forall s cells tol, well_stored s -> 1 <= cells <= int_max -> (0 <= tol)%Q -> (exists a b, In a (u_ids s) /\ In b (u_ids s) /\ a <> b) ->
  (forall a b, In a (u_ids s) -> In b (u_ids s) -> a <> b -> (Q2R tol < distance (middle s a) (middle s b))%R) -> remove_duplicates cells tol s = Ok s.
Proof.
  intros s cells tol W Hc Ht (a0 & b0 & Ia0 & Ib0 & Hab) Far. unfold remove_duplicates, centre_objs.
  rewrite (mapM_ok _ (fun id => (id, middle s id))) by (intros id I; rewrite (get_in s id W I); reflexivity). cbn [bind].
  set (objs := map (fun id => (id, middle s id)) (u_ids s)).
  assert (Apart : forall a b, In a (u_ids s) -> In b (u_ids s) -> a <> b -> (tol * tol < norm2 (vsub (middle s a) (middle s b)))%Q).
  { intros a b Ia Ib H. specialize (Far a b Ia Ib H). unfold distance in Far. apply Rlt_Qlt. rewrite Q2R_mult. pose proof (sqrt_Q_pos _ Ht). pose proof (sqrt_sqrt _ (sqrt_Q_pos _ (norm2_nonneg (vsub (middle s a) (middle s b))))). nra. }
  destruct (grid_of_ok cells objs Hc) as (g & G1 & G2).
  { exists (a0, middle s a0), (b0, middle s b0). split; [apply in_map_iff; now exists a0|]. split; [apply in_map_iff; now exists b0|]. cbn [snd]. intros (E1 & E2 & E3). specialize (Apart a0 b0 Ia0 Ib0 Hab). unfold norm2, dot, vsub in Apart. cbn [cx cy cz] in Apart. rewrite E1, E2, E3 in Apart. Lqa.nra. }
  rewrite G1. cbn [bind]. apply dup_loop_ok; [exact W| |lia|unfold zlen; lia].
  intros id I. destruct (G2 id (middle s id) tol) as (r & R1 & R2 & R3 & R4); [apply in_map_iff; now exists id|exact Ht|].
  change (facet_centre (facet s id)) with (middle s id). rewrite R1. f_equal. apply singleton; [apply R3; unfold objs; rewrite map_map; cbn [fst]; rewrite map_id; apply W|].
  intros k. split; [|intros ->; exact R2]. intros Hk. apply R4 in Hk. destruct Hk as (c' & Hc' & Hn). apply in_map_iff in Hc'. destruct Hc' as (j & Ej & Ij). injection Ej as -> <-.
  destruct (Z.eq_dec k id) as [|Ne]; [assumption|]. exfalso. specialize (Apart k id Ij I Ne). unfold norm_le in Hn. apply andb_true_iff in Hn. destruct Hn as [_ Hn]. apply Qle_bool_iff in Hn. Lqa.lra.
Qed.
Print Assumptions C95_distinct.

(** ** Examples and refutations *)
Definition lone (a b c : coord) : sfacet := SFacet (a, b, c) (-1, -1, -1) (-1, -1, -1).
Definition three (f g h : sfacet) : surf := u_add (u_add (u_add u_empty 0 f) 1 g) 2 h.
Lemma three_well f g h : well_stored (three f g h).
Proof. apply well_add; [apply well_add; [apply well_add; [apply well_empty|intros []|lia]|cbn; lia|lia]|cbn; lia|lia]. Qed.
Definition small_tri : sfacet := lone vzero (Coord 3 0 0) (Coord 0 3 0).
Definition large_tri : sfacet := lone (Coord (-2) (-2) 0) (Coord 7 (-2) 0) (Coord (-2) 7 0).
Definition distant : sfacet := lone (Coord 9 0 0) (Coord 9 3 0) (Coord 9 0 3).
(** A surface of two facets sharing an edge and one apart, of which one has a side of length 1/100. *)
Definition sliver : surf := three (SFacet (vzero, Coord 1 0 0, Coord 0 1 0) (1, -1, -1) (2, -1, -1)) (SFacet (Coord 1 0 0, vzero, Coord 1 (- (1 # 100)) 0) (0, -1, -1) (2, -1, -1)) distant.
Lemma sliver_ok : well_stored sliver /\ no_ghosts sliver /\ linked sliver 0 0 1 0.
Proof.
  split; [apply three_well|]. split.
  - intros id k I. destruct I as [<-|[<-|[<-|[]]]]; unfold across; (destruct (tget_cases k) as [H|[H|H]]; [rewrite (tget_mod _ k 0) by exact H|rewrite (tget_mod _ k 1) by exact H|rewrite (tget_mod _ k 2) by exact H]); vm_compute; auto.
  - unfold linked. vm_compute. repeat split; auto; discriminate.
Qed.
(** The facet with the short side and the one without neighbours go, and 0 stays. *)
Example C95_case : exists s', (fl <- check_edges sliver [] ;; remove_invalid (1 # 10) fl sliver) = Ok s' /\ ~ In 1 (u_ids s') /\ ~ In 2 (u_ids s') /\ In 0 (u_ids s').
Proof.
  destruct sliver_ok as (W & G & _). destruct (C95_clean sliver (1 # 10) [] W G) as (s' & A1 & _ & A3 & _). exists s'. split; [exact A1|]. rewrite !A3. split; [|split].
  - intros (_ & H & _). specialize (H 2). unfold distance in H. change (norm2 (vsub (corner sliver 1 (2 + 1)) (corner sliver 1 2))) with (norm2 (vsub (Coord 1 0 0) (Coord 1 (- (1 # 100)) 0))) in H.
    rewrite (Qeq_eqR (norm2 (vsub (Coord 1 0 0) (Coord 1 (- (1 # 100)) 0))) ((1 # 100) * (1 # 100))) in H by reflexivity. rewrite Q2R_mult, sqrt_square in H by (unfold Q2R; cbn; lra). unfold Q2R in H. cbn in H. lra.
  - intros (_ & _ & k & H). apply H. unfold across. destruct (tget_cases k) as [E|[E|E]]; [rewrite (tget_mod _ k 0)|rewrite (tget_mod _ k 1)|rewrite (tget_mod _ k 2)]; auto.
  - split; [now left|]. split; [|exists 0; discriminate].
    intros k. unfold distance. rewrite <- (sqrt_square (Q2R (1 # 10))) by (unfold Q2R; cbn; lra). apply sqrt_le_1_alt. rewrite <- Q2R_mult. apply Qle_Rle.
    unfold corner. destruct (tget_cases k) as [E|[E|E]]; [rewrite (tget_mod _ k 0), (tget_mod _ (k + 1) 1)|rewrite (tget_mod _ k 1), (tget_mod _ (k + 1) 2)|rewrite (tget_mod _ k 2), (tget_mod _ (k + 1) 0)]; try exact E; try (rewrite Z.add_mod, E by lia; reflexivity); vm_compute; discriminate.
Qed.
(** Facets left over still name removed facets as neighbours: checking the edges once more fails. *)
Theorem C95_ghosts_refuted : exists s', (fl <- check_edges sliver [] ;; remove_invalid (1 # 10) fl sliver) = Ok s' /\ well_stored s' /\ In 0 (u_ids s') /\ across s' 0 0 = 1 /\ ~ In 1 (u_ids s') /\ check_edges s' [] = Throw.
Proof.
  destruct sliver_ok as (W & G & _). destruct (C95_clean sliver (1 # 10) [] W G) as (s' & A1 & A2 & A3 & A4). destruct C95_case as (s2 & B1 & B2 & B3 & B4). rewrite A1 in B1. injection B1 as <-. exists s'. split; [exact A1|]. split; [exact A2|]. split; [exact B4|]. split; [unfold across; rewrite (A4 0 B4); reflexivity|]. split; [exact B2|].
  assert (Id : u_ids s' = [0]).
  { apply singleton; [apply A2|]. intros k. split; [|intros ->; exact B4]. intros Hk. assert (H := proj1 (proj1 (A3 k) Hk)). destruct H as [<-|[<-|[<-|[]]]]; [reflexivity|contradiction|contradiction]. }
  unfold check_edges. rewrite Id. cbn [foldM]. rewrite (get_in s' 0 A2 B4). cbn [bind]. rewrite (A4 0 B4). unfold check_edge at 1. cbn [sf_nb facet]. change (tget (sf_nb (facet sliver 0)) 0) with 1. cbn [Z.eqb].
  assert (N : u_get s' 1 = Throw). { unfold u_get, zat. destruct (zlookup 1 (u_map s')) eqn:E; [|reflexivity]. exfalso. apply B2. apply A2. congruence. }
  change (1 =? -1) with false. cbv iota. rewrite N. reflexivity.
Qed.
Print Assumptions C95_ghosts_refuted.
(** A facet stored twice is not removed: the search structure still holds it after its removal, and the next look at it throws. *)
Theorem C95_duplicate_refuted : well_stored (three small_tri small_tri distant) /\ remove_duplicates 2 (1 # 10) (three small_tri small_tri distant) = Throw.
Proof. split; [apply three_well|vm_compute; reflexivity]. Qed.
Print Assumptions C95_duplicate_refuted.
(** Of two facets with the same middle but different areas one is removed: it is compared with itself. *)
Theorem C95_concentric_refuted : exists s', remove_duplicates 2 (1 # 10) (three small_tri large_tri distant) = Ok s' /\ u_ids s' = [0; 2] /\ well_stored (three small_tri large_tri distant).
Proof. eexists. split; [vm_compute; reflexivity|]. split; [reflexivity|apply three_well]. Qed.
Print Assumptions C95_concentric_refuted.
Example C95_distinct_case : remove_duplicates 2 (1 # 10) (three small_tri distant (lone (Coord 0 0 5) (Coord 3 0 5) (Coord 0 3 5))) = Ok (three small_tri distant (lone (Coord 0 0 5) (Coord 3 0 5) (Coord 0 3 5))).
Proof. vm_compute. reflexivity. Qed.

(** C93: orienting the facets of a surface like a given one. *)
From Coq Require Import ZArith List Bool QArith Lia Lqa.
From Verif Require Import Prelude Vec ZMap Mesh_Proofs Surf_Model Surf_Spec Surf_Proofs Split_Proofs Orient_Proofs.
Import ListNotations.
Open Scope Z_scope.
Ltac Zify.zify_post_hook ::= Z.div_mod_to_equations.

(** ** Vocabulary *)
(** Facets connected by steps to neighbours. *)
Definition adjacent (s : surf) (a b : Z) : Prop := exists k l, linked s a k b l.
Inductive reach (s : surf) (p : Z) : Z -> Prop :=
| reach_self : reach s p p
| reach_next : forall a b, reach s p a -> adjacent s a b -> reach s p b.
Definition unchanged (s s' : surf) (id : Z) : Prop := forall u, corner s' id u = corner s id u.
(** Two vertices of the facet have been exchanged. *)
Definition reversed (s s' : surf) (id : Z) : Prop := exists v, forall u, corner s' id u = corner s id (2 * v - u).
Definition long_edges (s : surf) (tol : Q) : Prop := forall id k, In id (u_ids s) -> (tol * tol < norm2 (vsub (corner s id (k + 1)) (corner s id k)))%Q.

(** ** The loop *)
Record state (tol : Q) (s0 : surf) (p : Z) (L : list Z) (s : surf) : Prop := {
  o_ids : u_ids s = u_ids s0;
  o_tied : tied s;
  o_long : long_edges s tol;
  o_side : exists o, orients o s /\ forall x, In x L -> o x = o p;
  o_nodup : NoDup L;
  o_in : forall x, In x L -> In x (u_ids s0);
  o_pivot : In p L;
  o_reach : forall x, In x L -> reach s0 p x;
  o_adj : forall a b, In a (u_ids s0) -> (adjacent s a b <-> adjacent s0 a b);
  o_rest : forall x, ~ In x L -> unchanged s0 s x;
  o_turned : forall x, unchanged s0 s x \/ reversed s0 s x;
  o_same : unchanged s0 s p }.
Lemma step_edge tol s0 p L s id j : (0 <= tol)%Q -> state tol s0 p L s -> In id L -> 0 <= j < 3 ->
  exists L' s', orient_edge tol id (L, s) j = Ok (L', s') /\ state tol s0 p L' s' /\ (exists l, L' = L ++ l) /\ (across s id j <> -1 -> In (across s id j) L') /\
    forall y k, In y L -> across s' y k = across s y k.
Proof.
  intros Ht St Hi Hj. assert (St' := St). destruct St' as [Ei T Lo (o & O & Ol) Nd Li Pi Re Ad Rs Tu Sa]. assert (Ii : In id (u_ids s)) by (rewrite Ei; now apply Li).
  unfold orient_edge. cbn [fst snd]. rewrite (u_get_stored s id (well_stored_in s id (proj1 T) Ii)). cbn [bind]. change (tget (sf_nb (facet s id)) j) with (across s id j). change (tget (sf_vn (facet s id)) j) with (apart s id j).
  destruct (Z.eqb_spec (across s id j) (-1)) as [E|E]; [exists L, s; split; [reflexivity|]; split; [exact St|]; split; [exists []; now rewrite app_nil_r|]; split; [contradiction|reflexivity]|].
  destruct (existsb (Z.eqb (across s id j)) L) eqn:Ex.
  { exists L, s. split; [reflexivity|]. split; [exact St|]. split; [exists []; now rewrite app_nil_r|]. split; [|reflexivity]. intros _. apply existsb_exists in Ex. destruct Ex as (y & Hy & Ey). apply Z.eqb_eq in Ey. now rewrite Ey. }
  destruct (proj2 T id j Ii) as [[F _]|(nb & l & Lk)]; [contradiction|]. assert (Lk' := Lk). destruct Lk' as (In' & Ne & E1 & E2 & _ & _). rewrite E1, E2 in *. assert (Nl : ~ In nb L). { intros C. rewrite (proj2 (existsb_exists _ _)) in Ex; [discriminate|]. exists nb. split; [exact C|apply Z.eqb_refl]. }
  rewrite (u_get_stored s nb (well_stored_in s nb (proj1 T) In')). cbn [bind]. fold (corner s nb ((l + 2) mod 3 + 1)). fold (corner s nb ((l + 2) mod 3 + 2)). fold (corner s id j). fold (corner s id (j + 1)). rewrite (corner_mod s nb ((l + 2) mod 3 + 1) l), (corner_mod s nb ((l + 2) mod 3 + 2) (l + 1)) by lia.
  assert (Rn : reach s0 p nb) by (apply reach_next with id; [now apply Re|]; apply Ad; [now rewrite <- Ei|]; now exists j, l).
  assert (Nd' : NoDup (L ++ [nb])) by (apply (NoDup_incl_NoDup (l := nb :: L)); [now constructor|rewrite app_length; cbn; lia|]; intros y Hy; apply in_app_iff; destruct Hy as [<-|Hy]; [right; now left|now left]).
  assert (Li' : forall x, In x (L ++ [nb]) -> In x (u_ids s0)) by (intros y Hy; apply in_app_iff in Hy; destruct Hy as [Hy|[<-|[]]]; [now apply Li|now rewrite <- Ei]).
  assert (Re' : forall x, In x (L ++ [nb]) -> reach s0 p x) by (intros y Hy; apply in_app_iff in Hy; destruct Hy as [Hy|[<-|[]]]; [now apply Re|exact Rn]).
  assert (Pi' : In p (L ++ [nb])) by (apply in_app_iff; now left). assert (Nb' : In nb (L ++ [nb])) by (apply in_app_iff; right; now left).
  assert (Or := O id j nb l Ii Lk). assert (Oi := Ol id Hi).
  assert (Zero : forall a b, a =v= b -> norm_le (vsub a b) tol = true). { intros a b Hab. unfold norm_le. apply andb_true_iff. split; [now apply Qle_bool_iff|]. apply Qle_bool_iff. rewrite Hab. assert (Z0 : norm2 (vsub b b) == 0) by (unfold norm2, dot, vsub; cbn [cx cy cz]; ring). rewrite Z0. nra. }
  destruct (Bool.eqb (o id) (o nb)) eqn:Eo.
  - (* already right *)
    apply eqb_prop in Eo. destruct Or as [O1 O2]. assert (Fa : norm_le (vsub (corner s nb l) (corner s id j)) tol = false). { unfold norm_le. apply andb_false_iff. right. apply Bool.not_true_is_false. intros C. apply Qle_bool_iff in C. rewrite O1 in C. specialize (Lo id j Ii). lra. }
    rewrite Fa. cbn [andb]. exists (L ++ [nb]), s. split; [reflexivity|]. split; [|split; [now exists [nb]|split; [auto|reflexivity]]]. constructor; auto.
    + exists o. split; [exact O|]. intros y Hy. apply in_app_iff in Hy. destruct Hy as [Hy|[<-|[]]]; [now apply Ol|congruence].
    + intros y Hy. apply Rs. intros C. apply Hy. apply in_app_iff. now left.
  - apply eqb_false_iff in Eo. destruct Or as [O1 O2]. rewrite (Zero _ _ O1), (Zero _ _ O2). cbn [andb].
    destruct (invert_ok s nb ((l + 2) mod 3) T In') as (s' & R' & I' & W' & C' & K'). rewrite R'. cbn [bind]. exists (L ++ [nb]), s'. set (v := (l + 2) mod 3) in *. split; [reflexivity|].
    assert (Ac : forall y k, y <> nb -> across s' y k = across s y k) by (intros y k Hy; exact (inv_across s s' nb v T In' I' W' C' K' y k Hy)).
    split; [|split; [now exists [nb]|split; [auto|intros y k Hy; apply Ac; intros ->; contradiction]]].
    assert (Nid : id <> nb) by congruence. assert (Np : p <> nb) by (intros ->; contradiction).
    constructor; auto.
    + congruence.
    + exact (inv_tied s s' nb v T In' I' W' C' K').
    + intros y k Hy. rewrite I' in Hy. rewrite !C'. destruct (Z.eqb_spec y nb) as [->|]; [|now apply Lo]. assert (Q1 := Lo nb (2 * v - (k + 1)) Hy). replace (2 * v - (k + 1) + 1) with (2 * v - k) in Q1 by lia.
      assert (Q2 : norm2 (vsub (corner s nb (2 * v - (k + 1))) (corner s nb (2 * v - k))) == norm2 (vsub (corner s nb (2 * v - k)) (corner s nb (2 * v - (k + 1))))) by (unfold norm2, dot, vsub; cbn [cx cy cz]; ring). rewrite Q2. exact Q1.
    + exists (toggle o nb). split; [exact (inv_orients s s' nb v o T In' I' W' C' K' O)|]. intros y Hy. unfold toggle. destruct (Z.eqb_spec p nb); [contradiction|]. apply in_app_iff in Hy. destruct Hy as [Hy|[<-|[]]]; [destruct (Z.eqb_spec y nb) as [->|]; [contradiction|now apply Ol]|]. rewrite Z.eqb_refl, <- Oi. destruct (o nb), (o id); cbn; congruence.
    + intros a b Ha. rewrite <- Ad by exact Ha. split; intros (k & m & H).
      * exists (mu nb v a k), (mu nb v b m). rewrite <- Ei in Ha. exact (inv_linked_back s s' nb v T In' I' W' C' K' a k b m Ha H).
      * exists (mu nb v a k), (mu nb v b m). exact (inv_linked s s' nb v T In' I' W' C' K' a k b m H).
    + intros y Hy u. rewrite C'. destruct (Z.eqb_spec y nb) as [->|]; [exfalso; apply Hy; exact Nb'|]. apply Rs. intros C. apply Hy. apply in_app_iff. now left.
    + intros y. destruct (Z.eq_dec y nb) as [->|Ny]; [right; exists v; intros u; rewrite C', Z.eqb_refl; now apply Rs|]. destruct (Tu y) as [U|(w & U)]; [left|right; exists w]; intros u; rewrite C', (proj2 (Z.eqb_neq y nb) Ny); apply U.
    + intros u. rewrite C', (proj2 (Z.eqb_neq p nb) Np). apply Sa.
Qed.
Definition done (i : nat) (L : list Z) (s : surf) : Prop := forall m x k, nth_error L m = Some x -> (m < i)%nat -> across s x k <> -1 -> In (across s x k) L.
Lemma step_facet tol s0 p L s id : (0 <= tol)%Q -> state tol s0 p L s -> In id L ->
  exists L' s', foldM (orient_edge tol id) [0; 1; 2] (L, s) = Ok (L', s') /\ state tol s0 p L' s' /\ (exists l, L' = L ++ l) /\ (forall k, across s' id k <> -1 -> In (across s' id k) L') /\
    forall y k, In y L -> across s' y k = across s y k.
Proof.
  intros Ht St Hi. destruct (step_edge tol s0 p L s id 0 Ht St Hi ltac:(lia)) as (L1 & s1 & R1 & S1 & (e1 & X1) & N1 & A1).
  assert (H1 : In id L1) by (rewrite X1; apply in_app_iff; now left). destruct (step_edge tol s0 p L1 s1 id 1 Ht S1 H1 ltac:(lia)) as (L2 & s2 & R2 & S2 & (e2 & X2) & N2 & A2).
  assert (H2 : In id L2) by (rewrite X2; apply in_app_iff; now left). destruct (step_edge tol s0 p L2 s2 id 2 Ht S2 H2 ltac:(lia)) as (L3 & s3 & R3 & S3 & (e3 & X3) & N3 & A3).
  exists L3, s3. split; [cbn [foldM]; rewrite R1; cbn [bind]; rewrite R2; cbn [bind]; rewrite R3; reflexivity|]. split; [exact S3|]. split; [exists (e1 ++ e2 ++ e3); now rewrite X3, X2, X1, !app_assoc|]. split.
  - intros k. rewrite A3, A2, A1 by assumption. destruct (tget_cases k) as [E|[E|E]].
    + rewrite (across_mod s id k 0) by lia. intros H. apply N1 in H. rewrite X3, X2. apply in_app_iff. left. apply in_app_iff. now left.
    + rewrite (across_mod s id k 1) by lia. rewrite <- (A1 id 1 Hi). intros H. apply N2 in H. rewrite X3. apply in_app_iff. now left.
    + rewrite (across_mod s id k 2) by lia. rewrite <- (A1 id 2 Hi), <- (A2 id 2 H1). intros H. now apply N3 in H.
  - intros y k Hy. rewrite A3, A2, A1; auto; [rewrite X1|rewrite X2, X1]; repeat (apply in_app_iff; left); auto.
Qed.
Lemma loop_orients tol s0 p : (0 <= tol)%Q -> well_stored s0 -> forall turns i L s, state tol s0 p L s -> done i L s -> (i <= length L)%nat -> (length (u_ids s0) < turns + i)%nat ->
  exists L' s', orient_loop turns tol i (L, s) = Ok s' /\ state tol s0 p L' s' /\ done (length L') L' s'.
Proof.
  intros Ht W. induction turns as [|t IH]; intros i L s St Dn Hi Hm.
  - exfalso. assert (Q := NoDup_incl_length (o_nodup _ _ _ _ _ St) (fun x Hx => o_in _ _ _ _ _ St x Hx)). lia.
  - cbn [orient_loop fst]. destruct (nth_error L i) as [id|] eqn:E.
    + assert (Hin : In id L) by (eapply nth_error_In; exact E). assert (Hl : (i < length L)%nat) by (apply nth_error_Some; congruence). destruct (step_facet tol s0 p L s id Ht St Hin) as (L' & s' & R' & S' & (e & X) & N' & A'). rewrite R'. cbn [bind].
      apply IH; [exact S'| |rewrite X, app_length; lia|lia].
      intros m x k Hx Hm'. assert (Hlm : (m < length L)%nat) by lia. assert (Hx0 : nth_error L m = Some x) by (rewrite X, nth_error_app1 in Hx; [exact Hx|exact Hlm]). destruct (Nat.eq_dec m i) as [->|Nm]; [rewrite E in Hx0; injection Hx0 as ->; apply N'|].
      rewrite A' by (eapply nth_error_In; exact Hx0). intros H. rewrite X. apply in_app_iff. left. apply (Dn m x k Hx0); [lia|exact H].
    + exists L, s. split; [reflexivity|]. split; [exact St|]. assert (length L <= i)%nat by (now apply nth_error_None). replace (length L) with i by lia. exact Dn.
Qed.

(** ** C93 *)
Theorem C93_orientation : forall tol s pivot o, (0 <= tol)%Q -> tied s -> orients o s -> long_edges s tol -> In pivot (u_ids s) ->
  exists s', orient tol pivot s = Ok s' /\ joined s' /\ u_ids s' = u_ids s /\
    (forall a b, In a (u_ids s) -> (adjacent s' a b <-> adjacent s a b)) /\
    unchanged s s' pivot /\ (forall id, unchanged s s' id \/ reversed s s' id) /\ (forall id, ~ reach s pivot id -> unchanged s s' id) /\
    (forall id k nb l, reach s pivot id -> linked s' id k nb l -> opposite s' id k nb l).
Proof.
  intros tol s p o Ht T O Lo Ip. assert (Iv : state tol s p [p] s).
  { constructor; auto.
    - exists o. split; [exact O|]. intros x [<-|[]]. reflexivity.
    - constructor; [intros []|constructor].
    - intros x [<-|[]]. exact Ip.
    - now left.
    - intros x [<-|[]]. constructor.
    - intros; reflexivity.
    - intros x _ u. reflexivity.
    - intros x. left. intros u. reflexivity.
    - intros u. reflexivity. }
  destruct (loop_orients tol s p Ht (proj1 T) (length (u_ids s) + 2) 0 [p] s Iv) as (L & s' & R' & S' & D'); [intros m x k _ H; lia|cbn; lia|lia|]. exists s'. split; [exact R'|]. destruct S' as [Ei T' Lo' (o' & O' & Ol') Nd Li Pi Re Ad Rs Tu Sa].
  assert (All : forall x, reach s p x -> In x L).
  { intros x Rx. induction Rx as [|a b Ra IH Hab]; [exact Pi|]. apply Ad in Hab; [|now apply Li]. destruct Hab as (k & l & H). assert (Hc := H). destruct Hc as (Hb & _ & <- & _). apply In_nth_error in IH. destruct IH as [m Hm]. apply (D' m a k Hm); [apply nth_error_Some; congruence|]. assert (0 <= across s' a k) by (apply T'; exact Hb). lia. }
  split. { split; [apply T'|]. intros id k I. destruct (proj2 T' id k I) as [F|(nb & l & H)]; [now left|right; exists nb, l; split; [exact H|]]. assert (X := O' id k nb l I H). destruct (Bool.eqb (o' id) (o' nb)); [now left|now right]. }
  split; [exact Ei|]. split; [exact Ad|]. split; [exact Sa|]. split; [exact Tu|]. split; [intros id H; apply Rs; intros C; apply H; now apply Re|].
  intros id k nb l Hr H. assert (Il : In id L) by now apply All. assert (Ia : In id (u_ids s')) by (rewrite Ei; now apply Li). assert (Jl : In nb L) by (apply All; apply reach_next with id; [exact Hr|]; apply Ad; [now apply Li|]; now exists k, l).
  assert (X := O' id k nb l Ia H). rewrite (Ol' id Il), (Ol' nb Jl) in X. now rewrite Bool.eqb_reflx in X.
Qed.
Print Assumptions C93_orientation.
(** A connected surface becomes consistently oriented. *)
Theorem C93_connected : forall tol s pivot o, (0 <= tol)%Q -> tied s -> orients o s -> long_edges s tol -> In pivot (u_ids s) -> (forall id, In id (u_ids s) -> reach s pivot id) ->
  exists s', orient tol pivot s = Ok s' /\ glued s' /\ u_ids s' = u_ids s /\ unchanged s s' pivot /\ forall id, unchanged s s' id \/ reversed s s' id.
Proof.
  intros tol s p o Ht T O Lo Ip Co. destruct (C93_orientation tol s p o Ht T O Lo Ip) as (s' & R & J & E & _ & U & V & _ & Op). exists s'. split; [exact R|]. split; [|auto]. split; [apply J|]. intros id k I. destruct (proj2 J id k I) as [F|(nb & l & H & _)]; [now left|]. right. exists nb, l. split; [exact H|]. apply Op; [|exact H]. apply Co. now rewrite <- E.
Qed.
Print Assumptions C93_connected.

(** *** Cases *)
Definition origin : coord := Coord 0 0 0.
Definition corner_tet : surf := tetra 0 origin (Coord 1 0 0) (Coord 0 1 0) (Coord 0 0 1).
Lemma corner_tet_glued : glued corner_tet.
Proof. apply gluedb_spec; [now apply tetra_well|vm_compute; reflexivity]. Qed.
Lemma glued_oriented s : glued s -> tied s /\ orients (fun _ => true) s.
Proof.
  intros G. assert (T : tied s) by (split; [apply G|]; intros id k I; destruct (proj2 G id k I) as [F|(nb & l & H & _)]; [now left|right; now exists nb, l]). split; [exact T|]. intros a k b l Ia H. cbn.
  destruct (proj2 G a k Ia) as [[F _]|(b' & l' & H' & O)]; [destruct H as (Hb & _ & E & _); assert (0 <= b) by (apply G; exact Hb); lia|].
  assert (b' = b) by (destruct H as (_ & _ & <- & _), H' as (_ & _ & <- & _); reflexivity). subst b'. assert (M : l' mod 3 = l mod 3) by (destruct H as (_ & _ & _ & E1 & _), H' as (_ & _ & _ & E2 & _); rewrite E1 in E2; lia).
  destruct O as [O1 O2]. split; [rewrite <- (corner_mod s b l' l M); exact O1|rewrite (corner_mod s b (l + 1) (l' + 1)) by lia; exact O2].
Qed.
Definition longb (s : surf) (tol : Q) : bool := forallb (fun id => forallb (fun k => negb (Qle_bool (norm2 (vsub (corner s id (k + 1)) (corner s id k))) (tol * tol))) [0; 1; 2]) (u_ids s).
Lemma longb_spec s tol : longb s tol = true -> long_edges s tol.
Proof.
  intros H id k I. unfold longb in H. rewrite forallb_forall in H. specialize (H id I). rewrite forallb_forall in H. assert (Ik : In (k mod 3) [0; 1; 2]) by (cbn; destruct (tget_cases k) as [E|[E|E]]; rewrite E; auto). specialize (H _ Ik). apply negb_true_iff in H.
  rewrite (corner_mod s id (k mod 3 + 1) (k + 1)), (corner_mod s id (k mod 3) k) in H by lia. apply Qnot_le_lt. intros C. apply Qle_bool_iff in C. congruence.
Qed.
(** Facet 2 of the corner tetrahedron is turned over; orienting the surface like facet 0 turns it back. *)
Example C93_case : exists s s', invert corner_tet 2 0 = Ok s /\ tied s /\ orients (toggle (fun _ => true) 2) s /\ long_edges s (1 # 100) /\ (forall id, In id (u_ids s) -> reach s 0 id) /\ ~ glued s /\
  orient (1 # 100) 0 s = Ok s' /\ glued s' /\ reversed s s' 2 /\ ~ unchanged s s' 2.
Proof.
  destruct (glued_oriented _ corner_tet_glued) as [T O]. assert (I2 : In 2 (u_ids corner_tet)) by (vm_compute; auto). destruct (invert_ok corner_tet 2 0 T I2) as (s & R & Ei & W & C & K). exists s.
  assert (T' := inv_tied corner_tet s 2 0 T I2 Ei W C K). assert (O' := inv_orients corner_tet s 2 0 _ T I2 Ei W C K O).
  assert (Es : s = match invert corner_tet 2 0 with Ok x => x | _ => u_empty end) by now rewrite R. vm_compute in Es.
  assert (Lo : long_edges s (1 # 100)) by (apply longb_spec; rewrite Es; vm_compute; reflexivity).
  assert (Lk : forall k, (k = 0 \/ k = 1 \/ k = 2) -> adjacent s 0 (across s 0 k)). { intros k Hk. exists k, (apart s 0 k + 1). apply linkedb_spec. rewrite Es. destruct Hk as [->|[->| ->]]; vm_compute; reflexivity. }
  assert (Co : forall id, In id (u_ids s) -> reach s 0 id).
  { intros id Hid. assert (Hc : id = 0 \/ id = across s 0 0 \/ id = across s 0 1 \/ id = across s 0 2) by (rewrite Es in Hid |- *; vm_compute in Hid |- *; intuition). destruct Hc as [->|Hc]; [constructor|]. apply reach_next with 0; [constructor|]. destruct Hc as [->|[->| ->]]; apply Lk; auto. }
  assert (I0 : In 0 (u_ids s)) by (rewrite Es; vm_compute; auto).
  assert (Ng : ~ glued s). { intros G. destruct (glued_oriented s G) as [_ O2]. destruct (Lk 1) as (k & l & H); auto. assert (X := O2 0 k _ l I0 H). assert (Y := O' 0 k _ l I0 H). assert (across s 0 1 = 2) as E2 by (rewrite Es; reflexivity). rewrite E2 in X, Y. cbn in X, Y. destruct X as [X1 X2], Y as [Y1 Y2]. assert (Q := Lo 0 k I0). rewrite <- X1, Y1 in Q. assert (Z0 : norm2 (vsub (corner s 0 k) (corner s 0 k)) == 0) by (unfold norm2, dot, vsub; cbn [cx cy cz]; ring). rewrite Z0 in Q. vm_compute in Q. discriminate. }
  destruct (C93_connected (1 # 100) s 0 _ ltac:(vm_compute; discriminate) T' O' Lo I0 Co) as (s' & R' & G' & _ & _ & V). exists s'. repeat (split; [assumption|]).
  assert (Nu : ~ unchanged s s' 2). { intros U. assert (E' : s' = match orient (1 # 100) 0 s with Ok x => x | _ => u_empty end) by now rewrite R'. rewrite Es in E'. vm_compute in E'. specialize (U 0). rewrite E', Es in U. vm_compute in U. discriminate. }
  split; [|exact Nu]. destruct (V 2); [contradiction|assumption].
Qed.
(** The variant which is asked for an outward or inward orientation loses the first facet: it is overwritten with the last one, whatever the ray meets, and a closed surface is
    closed no more. *)
Theorem C93_outward_refuted : glued corner_tet /\ forall hit, exists s', orient_all (1 # 100) hit corner_tet = Ok s' /\ ~ unchanged corner_tet s' 0 /\ ~ reversed corner_tet s' 0 /\
  corner s' 0 0 = corner corner_tet 3 0 /\ corner s' 0 1 = corner corner_tet 3 1 /\ corner s' 0 2 = corner corner_tet 3 2.
Proof.
  split; [exact corner_tet_glued|]. intros hit.
  assert (Nr : forall s' : surf, corner s' 0 1 = corner corner_tet 3 1 -> ~ unchanged corner_tet s' 0 /\ ~ reversed corner_tet s' 0).
  { intros s' E. split.
    - intros U. specialize (U 1). rewrite E in U. vm_compute in U. discriminate.
    - intros (v & U). specialize (U 1). rewrite E in U. destruct (tget_cases (2 * v - 1)) as [M|[M|M]]; [rewrite (corner_mod corner_tet 0 (2 * v - 1) 0) in U by lia|rewrite (corner_mod corner_tet 0 (2 * v - 1) 1) in U by lia|rewrite (corner_mod corner_tet 0 (2 * v - 1) 2) in U by lia]; vm_compute in U; discriminate. }
  set (f1 := facet corner_tet 1). set (f2 := facet corner_tet 2). set (f3 := facet corner_tet 3).
  set (c1 := u_put corner_tet 0 f1). set (c2 := u_put c1 0 f2). set (c3 := u_put c2 0 f3).
  assert (E : orient_all (1 # 100) hit corner_tet = (s2 <- (if Z.odd (0 + (if hit f1 then 1 else 0) + (if hit f2 then 1 else 0) + (if hit f3 then 1 else 0)) then invert c3 3 0 else Ok c3) ;; orient (1 # 100) 3 s2)).
  { unfold orient_all. assert (U0 : u_id corner_tet 0 = Ok 0) by reflexivity. rewrite U0. cbn [bind]. assert (G0 : u_get corner_tet 0 = Ok (facet corner_tet 0)) by reflexivity. rewrite G0. cbn [bind]. assert (Tl : tl (u_ids corner_tet) = [1; 2; 3]) by reflexivity. rewrite Tl.
    assert (G1 : u_get corner_tet 1 = Ok f1) by reflexivity. assert (G2 : u_get c1 2 = Ok f2) by reflexivity. assert (G3 : u_get c2 3 = Ok f3) by reflexivity.
    cbn [foldM fst snd bind]. rewrite G1. cbn [foldM fst snd bind]. fold c1. rewrite G2. cbn [foldM fst snd bind]. fold c2. rewrite G3. cbn [foldM fst snd bind]. reflexivity. }
  rewrite E. destruct (hit f1), (hit f2), (hit f3); (eexists; split; [vm_compute; reflexivity|]; match goal with |- context [unchanged _ ?x _] => destruct (Nr x ltac:(vm_compute; reflexivity)) as [N1 N2] end; split; [exact N1|]; split; [exact N2|]; vm_compute; auto).
Qed.
Print Assumptions C93_outward_refuted.

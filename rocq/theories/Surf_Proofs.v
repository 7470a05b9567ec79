(** Reading and writing surfaces. *)
From Coq Require Import ZArith List Bool QArith Lia Sorting.Sorted.
From Verif Require Import Prelude Vec ZMap Mesh_Proofs Surf_Model Surf_Spec.
Import ListNotations.
Open Scope Z_scope.
Ltac Zify.zify_post_hook ::= Z.div_mod_to_equations.

Lemma tget_tset {A} (t : A * A * A) k x l : tget (tset t k x) l = if k mod 3 =? l mod 3 then x else tget t l.
Proof.
  unfold tget, tset. destruct t as [[a b] c]. destruct (Z.eqb_spec (k mod 3) 0), (Z.eqb_spec (k mod 3) 1), (Z.eqb_spec (l mod 3) 0), (Z.eqb_spec (l mod 3) 1), (Z.eqb_spec (k mod 3) (l mod 3)); cbn; try reflexivity; exfalso; lia.
Qed.
Lemma tget_mod {A} (t : A * A * A) k l : k mod 3 = l mod 3 -> tget t k = tget t l.
Proof. intros E. unfold tget. now rewrite E. Qed.
Lemma tget_cases (k : Z) : k mod 3 = 0 \/ k mod 3 = 1 \/ k mod 3 = 2.
Proof. lia. Qed.
Lemma tget0 {A} (a b c : A) k : k mod 3 = 0 -> tget (a, b, c) k = a.
Proof. intros E. unfold tget. now rewrite E. Qed.
Lemma tget1 {A} (a b c : A) k : k mod 3 = 1 -> tget (a, b, c) k = b.
Proof. intros E. unfold tget. now rewrite E. Qed.
Lemma tget2 {A} (a b c : A) k : k mod 3 = 2 -> tget (a, b, c) k = c.
Proof. intros E. unfold tget. now rewrite E. Qed.

Definition stored (s : surf) (id : Z) : Prop := zlookup id (u_map s) <> None.
Definition link (s : surf) (id k : Z) : Z * Z := (across s id k, apart s id k).
Lemma u_get_stored s id : stored s id -> u_get s id = Ok (facet s id).
Proof. unfold stored, u_get, zat, facet. now destruct (zlookup id (u_map s)). Qed.
Lemma facet_put s id f id' : facet (u_put s id f) id' = if id' =? id then f else facet s id'.
Proof. unfold facet, u_put. cbn [u_map]. rewrite zlookup_insert. now destruct (id' =? id). Qed.
Lemma facet_add s id f id' : facet (u_add s id f) id' = if id' =? id then f else facet s id'.
Proof. unfold facet, u_add. cbn [u_map]. rewrite zlookup_insert. now destruct (id' =? id). Qed.
Lemma stored_put s id f id' : stored (u_put s id f) id' <-> id' = id \/ stored s id'.
Proof. unfold stored, u_put. cbn [u_map]. rewrite zlookup_insert. destruct (Z.eqb_spec id' id); [split; [auto|intros _; discriminate]|intuition]. Qed.
Lemma stored_add s id f id' : stored (u_add s id f) id' <-> id' = id \/ stored s id'.
Proof. unfold stored, u_add. cbn [u_map]. rewrite zlookup_insert. destruct (Z.eqb_spec id' id); [split; [auto|intros _; discriminate]|intuition]. Qed.
Lemma well_put s id f : well_stored s -> In id (u_ids s) -> well_stored (u_put s id f).
Proof.
  intros (N & So & K & P) I. split; [exact N|]. split; [now apply zsorted_insert|]. split; [|exact P]. intros id'. change (In id' (u_ids s) <-> stored (u_put s id f) id'). rewrite stored_put, K. unfold stored. split; [auto|]. intros [->|H]; [now apply K|exact H].
Qed.
Lemma well_add s id f : well_stored s -> ~ In id (u_ids s) -> 0 <= id -> well_stored (u_add s id f).
Proof.
  intros (N & So & K & P) I H. split; [|split; [now apply zsorted_insert|split]].
  - cbn [u_add u_ids]. apply (NoDup_incl_NoDup (l := id :: u_ids s)); [now constructor|rewrite app_length; cbn; lia|]. intros x Hx. apply in_app_iff. destruct Hx as [<-|Hx]; [right; now left|now left].
  - intros id'. change (In id' (u_ids s ++ [id]) <-> stored (u_add s id f) id'). rewrite stored_add, in_app_iff, K. unfold stored. cbn. intuition.
  - intros id' H'. cbn [u_add u_ids] in H'. apply in_app_iff in H'. destruct H' as [H'|[<-|[]]]; auto.
Qed.
Lemma well_stored_in s id : well_stored s -> In id (u_ids s) -> stored s id.
Proof. intros (_ & _ & K & _). apply K. Qed.
Lemma well_empty : well_stored u_empty.
Proof. split; [constructor|]. split; [constructor|]. split; [|intros id []]. intros id. split; [intros []|]. cbn. congruence. Qed.
Lemma next_new s : well_stored s -> ~ In (u_next s) (u_ids s) /\ 0 <= u_next s.
Proof.
  intros (N & So & K & P). unfold u_next. destruct (zlast_key (u_map s)) as [k|] eqn:E.
  - split; [intros I|].
    + assert (Q := zlast_key_max (u_map s) k (k + 1) So E). assert (H : In (k + 1) (zkeys (u_map s))) by (apply zlookup_in_keys, K, I). specialize (Q H). lia.
    + assert (H : In k (u_ids s)). { apply K. apply zlookup_in_keys. clear - E. induction (u_map s) as [|[x f] m IH]; [discriminate|]. cbn [zlast_key] in E. destruct m as [|y m]; [injection E as <-; now left|]. right. now apply IH. } specialize (P k H). lia.
  - apply zlast_key_none in E. split; [|lia]. intros I. apply K in I. apply I. rewrite E. reflexivity.
Qed.
Lemma corner_mod s id k l : k mod 3 = l mod 3 -> corner s id k = corner s id l.
Proof. apply tget_mod. Qed.
Lemma across_mod s id k l : k mod 3 = l mod 3 -> across s id k = across s id l.
Proof. apply tget_mod. Qed.
Lemma apart_mod s id k l : k mod 3 = l mod 3 -> apart s id k = apart s id l.
Proof. apply tget_mod. Qed.

(** ** Deciding [glued] for concrete surfaces *)
Definition Qsame (a b : coord) : bool := Qeq_bool (cx a) (cx b) && Qeq_bool (cy a) (cy b) && Qeq_bool (cz a) (cz b).
Lemma Qsame_spec a b : Qsame a b = true <-> a =v= b.
Proof. unfold Qsame, veq. rewrite !andb_true_iff, !Qeq_bool_iff. tauto. Qed.
Definition linkedb (s : surf) (id k : Z) : bool :=
  let nb := across s id k in let w := apart s id k in let l := w + 1 in
  existsb (Z.eqb nb) (u_ids s) && negb (nb =? id) && (0 <=? w) && (w <=? 2) && (across s nb l =? id) && (apart s nb l =? (k + 2) mod 3).
Definition gluedb (s : surf) : bool := forallb (fun id => forallb (fun k => (across s id k =? -1) && (apart s id k =? -1) ||
  linkedb s id k && Qsame (corner s (across s id k) (apart s id k + 1)) (corner s id (k + 1)) && Qsame (corner s (across s id k) (apart s id k + 2)) (corner s id k)) [0; 1; 2]) (u_ids s).
Lemma linked_mod s id k k' nb l : k mod 3 = k' mod 3 -> linked s id k nb l -> linked s id k' nb l.
Proof. intros E (A & B & C & D & F & G). unfold linked. rewrite <- (across_mod s id k k' E), <- (apart_mod s id k k' E). replace ((k' + 2) mod 3) with ((k + 2) mod 3) by lia. auto 8. Qed.
Lemma linkedb_spec s id k : linkedb s id k = true -> linked s id k (across s id k) (apart s id k + 1).
Proof.
  unfold linkedb. rewrite !andb_true_iff, negb_true_iff, Z.eqb_neq, !Z.leb_le, !Z.eqb_eq, existsb_exists. intros (((((E & N) & W0) & W2) & A) & P). destruct E as (x & I & E). apply Z.eqb_eq in E. rewrite <- E in I. split; [exact I|]. split; [exact N|]. split; [reflexivity|]. split; [lia|]. auto.
Qed.
Lemma gluedb_spec s : well_stored s -> gluedb s = true -> glued s.
Proof.
  intros W H. split; [exact W|]. intros id k I. unfold gluedb in H. rewrite forallb_forall in H. specialize (H id I). rewrite forallb_forall in H. assert (Ik : In (k mod 3) [0; 1; 2]) by (cbn; destruct (tget_cases k) as [E|[E|E]]; rewrite E; auto). specialize (H _ Ik).
  assert (M : (k mod 3) mod 3 = k mod 3) by lia. assert (M1 : (k mod 3 + 1) mod 3 = (k + 1) mod 3) by lia. rewrite (corner_mod s id (k mod 3 + 1) (k + 1) M1), (corner_mod s id (k mod 3) k M), (across_mod s id (k mod 3) k M), (apart_mod s id (k mod 3) k M) in H.
  apply orb_true_iff in H. destruct H as [H|H]; [left; apply andb_true_iff in H; destruct H as [A B]; apply Z.eqb_eq in A, B; now split|]. right. rewrite !andb_true_iff, !Qsame_spec in H. destruct H as ((H & C1) & C2). apply linkedb_spec in H. exists (across s id k), (apart s id k + 1). rewrite (across_mod s id (k mod 3) k M), (apart_mod s id (k mod 3) k M) in H. split; [now apply (linked_mod s id (k mod 3))|].
  split; [exact C1|]. replace (apart s id k + 1 + 1) with (apart s id k + 2) by lia. exact C2.
Qed.
(** A tetrahedron with facet ids [o], ..., [o + 3]; the facets look outward if A, B, C, D are positively oriented. *)
Definition tetra (o : Z) (A B C D : coord) : surf :=
  u_add (u_add (u_add (u_add u_empty o (SFacet (A, C, B) (o + 3, o + 2, o + 1) (1, 2, 2))) (o + 1) (SFacet (A, B, D) (o, o + 2, o + 3) (1, 1, 2)))
    (o + 2) (SFacet (B, C, D) (o, o + 3, o + 1) (0, 0, 0))) (o + 3) (SFacet (A, D, C) (o + 1, o + 2, o) (1, 0, 2)).
Lemma tetra_well o A B C D : 0 <= o -> well_stored (tetra o A B C D).
Proof. intros H. unfold tetra. repeat (apply well_add; [| |lia]); try apply well_empty; cbn [u_ids u_add u_empty app In]; lia. Qed.

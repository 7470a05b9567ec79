(** Boolean checkers for the well-formedness predicates of Mesh_Spec, used only in examples. *)
From Coq Require Import ZArith List Lia Bool Sorted.
From Verif Require Import Prelude Vec ZMap Mesh_Model Mesh_Spec Mesh_Proofs.
Import ListNotations.
Open Scope Z_scope.

Definition memb (x : Z) (l : list Z) : bool := existsb (Z.eqb x) l.

Lemma memb_In x l : memb x l = true <-> In x l.
Proof.
  unfold memb. rewrite existsb_exists. split.
  - intros (y & Hy & He). apply Z.eqb_eq in He. now subst.
  - intros H. exists x. split; [assumption|apply Z.eqb_refl].
Qed.

Fixpoint nodupb (l : list Z) : bool :=
  match l with [] => true | x :: l' => negb (memb x l') && nodupb l' end.

Lemma nodupb_ok l : nodupb l = true <-> NoDup l.
Proof.
  induction l as [|x l IH]; cbn; [split; [constructor|reflexivity]|].
  rewrite andb_true_iff, negb_true_iff, IH. split.
  - intros [H1 H2]. constructor; [|assumption]. rewrite <- memb_In. congruence.
  - intros H. inversion H; subst. split; [|assumption]. destruct (memb x l) eqn:E; [|reflexivity].
    apply memb_In in E. contradiction.
Qed.

Fixpoint ssortedb (l : list Z) : bool :=
  match l with [] => true | x :: l' => forallb (Z.ltb x) l' && ssortedb l' end.

Lemma ssortedb_ok l : ssortedb l = true <-> StronglySorted Z.lt l.
Proof.
  induction l as [|x l IH]; cbn; [split; [constructor|reflexivity]|].
  rewrite andb_true_iff, forallb_forall, IH. split.
  - intros [H1 H2]. constructor; [assumption|]. apply Forall_forall. intros y Hy. apply Z.ltb_lt. auto.
  - intros H. inversion H as [|? ? Hs Hf]; subst. split; [|assumption]. rewrite Forall_forall in Hf.
    intros y Hy. apply Z.ltb_lt. auto.
Qed.

Definition wf_tableb {A} (t : table A) : bool :=
  nodupb (t_ids t) && ssortedb (zkeys (t_map t)) &&
  forallb (fun k => memb k (t_ids t)) (zkeys (t_map t)) &&
  forallb (fun k => memb k (zkeys (t_map t))) (t_ids t).

Lemma wf_tableb_ok {A} (t : table A) : wf_tableb t = true -> wf_table t.
Proof.
  unfold wf_tableb. rewrite !andb_true_iff, !forallb_forall. intros (((H1 & H2) & H3) & H4).
  split; [now apply nodupb_ok|]. split; [now apply ssortedb_ok|]. intros id. rewrite zlookup_in_keys.
  rewrite <- !memb_In in *. split; intros H; [apply H4|apply H3]; now apply memb_In.
Qed.

Definition wf_meshb (m : mesh) : bool :=
  wf_tableb (m_nodes m) && wf_tableb (m_faces m) && wf_tableb (m_elems m).

Lemma wf_meshb_ok m : wf_meshb m = true -> wf_mesh m.
Proof. unfold wf_meshb. rewrite !andb_true_iff. intros ((?&?)&?). repeat split; try now apply wf_tableb_ok. Qed.

Definition refs_okb (m : mesh) : bool :=
  forallb (fun p => forallb (fun n => memb n (t_ids (m_nodes m))) (e_nodes (snd p))) (t_map (m_elems m)) &&
  forallb (fun p => forallb (fun n => memb n (t_ids (m_nodes m))) (f_nodes (snd p))) (t_map (m_faces m)).

Lemma refs_okb_ok m : refs_okb m = true -> refs_ok m.
Proof.
  unfold refs_okb. rewrite andb_true_iff, !forallb_forall. intros [H1 H2].
  split; intros id v Hg; apply zat_Ok, zlookup_in in Hg; [specialize (H1 _ Hg)|specialize (H2 _ Hg)];
    cbn [snd] in *; rewrite forallb_forall in *; apply Forall_forall; intros n Hn; apply memb_In; auto.
Qed.

Definition face_refs_okb (m : mesh) : bool :=
  forallb (fun p => forallb (fun n => memb n (t_ids (m_faces m))) (e_faces (snd p))) (t_map (m_elems m)).

Lemma face_refs_okb_ok m : face_refs_okb m = true -> face_refs_ok m.
Proof.
  unfold face_refs_okb. rewrite forallb_forall. intros H1 id v Hg. apply zat_Ok, zlookup_in in Hg.
  specialize (H1 _ Hg). cbn [snd] in *. rewrite forallb_forall in *. apply Forall_forall.
  intros n Hn; apply memb_In; auto.
Qed.

(** A table filled in order. *)
Definition mk_table {A} (l : list (Z * A)) : table A := fold_left (fun t p => t_add t (fst p) (snd p)) l t_empty.

(** [std::map<Integer, T>] as a list of key/value pairs kept in ascending key order. *)
From Coq Require Import ZArith List Lia Bool Sorted.
From Verif Require Import Prelude.
Import ListNotations.
Open Scope Z_scope.

Definition zmap (A : Type) : Type := list (Z * A).

Definition zempty {A : Type} : zmap A := [].

(** [find(k)]. *)
Fixpoint zlookup {A : Type} (k : Z) (m : zmap A) : option A :=
  match m with
  | [] => None
  | (k', v) :: m' => if k =? k' then Some v else zlookup k m'
  end.

(** [m[k] = v]. *)
Fixpoint zinsert {A : Type} (k : Z) (v : A) (m : zmap A) : zmap A :=
  match m with
  | [] => [(k, v)]
  | (k', v') :: m' =>
      if k <? k' then (k, v) :: (k', v') :: m'
      else if k =? k' then (k, v) :: m'
      else (k', v') :: zinsert k v m'
  end.

(** [m.erase(k)]. *)
Definition zdelete {A : Type} (k : Z) (m : zmap A) : zmap A :=
  filter (fun kv => negb (k =? fst kv)) m.

(** [m.at(k)]: throws when the key is absent. *)
Definition zat {A : Type} (m : zmap A) (k : Z) : outcome A :=
  match zlookup k m with
  | Some v => Ok v
  | None => Throw
  end.

(** [m.rbegin()->first] of a non-empty map: the last key. *)
Fixpoint zlast_key {A : Type} (m : zmap A) : option Z :=
  match m with
  | [] => None
  | [(k, _)] => Some k
  | _ :: m' => zlast_key m'
  end.

Definition zkeys {A : Type} (m : zmap A) : list Z := map fst m.

Definition zsorted {A : Type} (m : zmap A) : Prop := StronglySorted Z.lt (zkeys m).

Section Lemmas.
  Context {A : Type}.
  Implicit Types (m : zmap A) (k : Z) (v : A).

  Lemma zlookup_insert_eq m k v : zlookup k (zinsert k v m) = Some v.
  Proof.
    induction m as [|[k' v'] m IH]; cbn; [now rewrite Z.eqb_refl|].
    destruct (Z.ltb_spec k k'); cbn; [now rewrite Z.eqb_refl|].
    destruct (Z.eqb_spec k k'); cbn; [now rewrite Z.eqb_refl|].
    destruct (Z.eqb_spec k k'); [lia|exact IH].
  Qed.

  Lemma zlookup_insert_ne m k k' v : k <> k' -> zlookup k' (zinsert k v m) = zlookup k' m.
  Proof.
    intros Hne. induction m as [|[k1 v1] m IH]; cbn.
    - destruct (Z.eqb_spec k' k); [lia|reflexivity].
    - destruct (Z.ltb_spec k k1); cbn.
      + destruct (Z.eqb_spec k' k); [lia|reflexivity].
      + destruct (Z.eqb_spec k k1); cbn.
        * subst. destruct (Z.eqb_spec k' k1); [lia|reflexivity].
        * destruct (Z.eqb_spec k' k1); [reflexivity|exact IH].
  Qed.

  Lemma zlookup_insert m k k' v :
    zlookup k' (zinsert k v m) = if k' =? k then Some v else zlookup k' m.
  Proof.
    destruct (Z.eqb_spec k' k) as [->|Hne]; [apply zlookup_insert_eq|].
    apply zlookup_insert_ne; lia.
  Qed.

  Lemma zlookup_delete m k k' :
    zlookup k' (zdelete k m) = if k' =? k then None else zlookup k' m.
  Proof.
    unfold zdelete.
    induction m as [|[k1 v1] m IH]; cbn.
    - now destruct (k' =? k).
    - destruct (Z.eqb_spec k k1) as [->|Hne]; cbn.
      + rewrite IH. destruct (Z.eqb_spec k' k1); reflexivity.
      + destruct (Z.eqb_spec k' k1) as [->|]; [|exact IH].
        destruct (Z.eqb_spec k1 k); [lia|reflexivity].
  Qed.

  Lemma zlookup_in_keys m k : zlookup k m <> None <-> In k (zkeys m).
  Proof.
    induction m as [|[k' v'] m IH]; cbn.
    - split; [congruence|tauto].
    - destruct (Z.eqb_spec k k') as [->|Hne].
      + split; [now left|congruence].
      + rewrite IH. split; [tauto|]. intros [->|]; [lia|assumption].
  Qed.

  Lemma zlookup_none m k : zlookup k m = None <-> ~ In k (zkeys m).
  Proof.
    rewrite <- zlookup_in_keys. destruct (zlookup k m); split; intuition congruence.
  Qed.

  Lemma zlookup_in m k v : zlookup k m = Some v -> In (k, v) m.
  Proof.
    induction m as [|[k' v'] m IH]; cbn; [congruence|].
    destruct (Z.eqb_spec k k') as [->|]; [intros [= ->]; now left|right; auto].
  Qed.

  Lemma zkeys_insert_in m k v x : In x (zkeys (zinsert k v m)) <-> x = k \/ In x (zkeys m).
  Proof.
    rewrite <- !zlookup_in_keys, zlookup_insert.
    destruct (Z.eqb_spec x k); intuition congruence.
  Qed.

  Lemma zkeys_delete_in m k x : In x (zkeys (zdelete k m)) <-> x <> k /\ In x (zkeys m).
  Proof.
    rewrite <- !zlookup_in_keys, zlookup_delete.
    destruct (Z.eqb_spec x k); intuition congruence.
  Qed.

  Lemma zsorted_empty : zsorted (@zempty A).
  Proof. constructor. Qed.

  Lemma zsorted_insert m k v : zsorted m -> zsorted (zinsert k v m).
  Proof.
    unfold zsorted. induction m as [|[k' v'] m IH]; cbn; intros Hs.
    - constructor; constructor.
    - inversion Hs as [|? ? Hs' Hf]; subst.
      destruct (Z.ltb_spec k k'); cbn.
      + constructor; [assumption|]. constructor; [assumption|].
        eapply Forall_impl; [|exact Hf]. intros; lia.
      + destruct (Z.eqb_spec k k'); cbn.
        * subst. constructor; assumption.
        * constructor; [now apply IH|].
          apply Forall_forall. intros x Hx.
          apply (zkeys_insert_in m k v x) in Hx. destruct Hx as [->|Hx]; [lia|].
          rewrite Forall_forall in Hf. now apply Hf.
  Qed.

  Lemma zsorted_delete m k : zsorted m -> zsorted (zdelete k m).
  Proof.
    unfold zsorted. induction m as [|[k' v'] m IH]; cbn; intros Hs; [constructor|].
    inversion Hs as [|? ? Hs' Hf]; subst.
    destruct (k =? k'); cbn; [now apply IH|].
    constructor; [now apply IH|].
    apply Forall_forall. intros x Hx.
    apply (zkeys_delete_in m k x) in Hx. rewrite Forall_forall in Hf. now apply Hf.
  Qed.

  Lemma zsorted_NoDup m : zsorted m -> NoDup (zkeys m).
  Proof.
    unfold zsorted. induction (zkeys m) as [|k ks IH]; intros Hs; [constructor|].
    inversion Hs as [|? ? Hs' Hf]; subst. constructor; [|now apply IH].
    rewrite Forall_forall in Hf. intros Hin. specialize (Hf _ Hin). lia.
  Qed.

  Lemma zlookup_of_in m k v : zsorted m -> In (k, v) m -> zlookup k m = Some v.
  Proof.
    intros Hs. apply zsorted_NoDup in Hs.
    induction m as [|[k' v'] m IH]; cbn; [tauto|].
    inversion Hs as [|? ? Hni Hs']; subst.
    intros [[= -> ->]|Hin]; [now rewrite Z.eqb_refl|].
    destruct (Z.eqb_spec k k') as [->|]; [|now apply IH].
    exfalso. apply Hni. change k' with (fst (k', v)). now apply in_map.
  Qed.

  Lemma zlast_key_none m : zlast_key m = None <-> m = [].
  Proof.
    induction m as [|[k v] m IH]; cbn; [tauto|].
    destruct m as [|p m]; [split; congruence|].
    rewrite IH. split; congruence.
  Qed.

  Lemma zlast_key_in m k : zlast_key m = Some k -> In k (zkeys m).
  Proof.
    induction m as [|[k' v'] m IH]; cbn; [congruence|].
    destruct m as [|p m]; [intros [= ->]; now left|].
    intros H. right. now apply IH.
  Qed.

  Lemma zlast_key_max m k x :
    zsorted m -> zlast_key m = Some k -> In x (zkeys m) -> x <= k.
  Proof.
    unfold zsorted. induction m as [|[k' v'] m IH]; cbn; [tauto|].
    intros Hs Hl. inversion Hs as [|? ? Hs' Hf]; subst.
    destruct m as [|p m].
    - injection Hl as ->. intros [->|[]]; lia.
    - intros [<-|Hin]; [|now apply IH].
      apply zlast_key_in in Hl. rewrite Forall_forall in Hf. specialize (Hf _ Hl). lia.
  Qed.
End Lemmas.

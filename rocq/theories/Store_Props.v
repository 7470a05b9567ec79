(** C89: facet storage of STL files. *)
From Coq Require Import ZArith List Lia Bool.
From Verif Require Import Prelude ZMap Mesh_Proofs Stl_Model Stl_Props.
Import ListNotations.
Open Scope Z_scope.
Notation length := List.length.

(** ** Vocabulary: what a user did, and what should be stored *)
Inductive sop (V : Type) : Type := SAdd (id : Z) (f : facet V) | SRemove (id : Z).
Arguments SAdd {V}. Arguments SRemove {V}.
Definition apply_op {V} (s : stl V) (o : sop V) : outcome (stl V) := match o with SAdd id f => Ok (add_facet s id f) | SRemove id => remove_facet s id end.
Definition book {V} (l : list (Z * facet V)) (o : sop V) : list (Z * facet V) :=
  match o with SAdd id f => l ++ [(id, f)] | SRemove id => filter (fun e => negb (id =? fst e)) l end.
(** Added ids are new, removed ids are present. *)
Fixpoint proper {V} (l : list (Z * facet V)) (ops : list (sop V)) : Prop :=
  match ops with
  | [] => True
  | o :: r => (match o with SAdd id _ => ~ In id (map fst l) | SRemove id => In id (map fst l) end) /\ proper (book l o) r
  end.
(** The file holds exactly these facets, in this order. *)
Definition stores {V} (s : stl V) (l : list (Z * facet V)) : Prop :=
  s_ids s = map fst l /\ NoDup (map fst l) /\ (forall id f, In (id, f) l -> zat (s_map s) id = Ok f) /\ (forall id, ~ In id (map fst l) -> zat (s_map s) id = Throw).

(** ** Proofs *)
Lemma erase_id_filter id l : NoDup l -> In id l -> erase_id id l = Some (filter (fun x => negb (id =? x)) l).
Proof.
  induction l as [|x l IH]; intros N I; [destruct I|]. inversion N as [|? ? Nx N']; subst. cbn [erase_id filter]. destruct (Z.eqb_spec id x) as [->|E]; cbn [negb].
  - f_equal. symmetry. clear - Nx. induction l as [|y l IH]; [reflexivity|]. cbn [filter]. destruct (Z.eqb_spec x y) as [->|E]; [exfalso; apply Nx; now left|]. cbn [negb]. f_equal. apply IH. intros H. apply Nx. now right.
  - destruct I as [->|I]; [contradiction|]. now rewrite (IH N' I).
Qed.
Lemma map_filter_fst {A} (p : Z -> bool) (l : list (Z * A)) : map fst (filter (fun e => p (fst e)) l) = filter p (map fst l).
Proof. induction l as [|e l IH]; [reflexivity|]. cbn. destruct (p (fst e)); cbn; now rewrite IH. Qed.
Definition kept {V} (s : stl V) (l : list (Z * facet V)) : Prop := stores s l /\ zsorted (s_map s).
Lemma kept_add {V} (s : stl V) l id f : kept s l -> ~ In id (map fst l) -> kept (add_facet s id f) (l ++ [(id, f)]).
Proof.
  intros [(I & N & L & U) Z0] H. split; [|now apply zsorted_insert]. unfold stores. cbn [add_facet s_ids s_map]. rewrite map_app, I. cbn [map fst]. split; [reflexivity|]. split; [|split].
  - apply (NoDup_incl_NoDup (l := id :: map fst l)); [now constructor|rewrite app_length; cbn; lia|]. intros x Hx. apply in_app_iff. destruct Hx as [<-|Hx]; [right; now left|now left].
  - intros k g Hk. unfold zat. rewrite zlookup_insert. apply in_app_iff in Hk. destruct Hk as [Hk|[[= <- <-]|[]]]; [|now rewrite Z.eqb_refl].
    destruct (Z.eqb_spec k id) as [->|E]; [exfalso; apply H; apply in_map_iff; exists (id, g); auto|]. apply (L k g Hk).
  - intros k Hk. rewrite in_app_iff in Hk. unfold zat. rewrite zlookup_insert. destruct (Z.eqb_spec k id) as [->|E]; [exfalso; apply Hk; right; now left|]. apply U. tauto.
Qed.
Lemma kept_remove {V} (s : stl V) l id : kept s l -> In id (map fst l) -> exists s', remove_facet s id = Ok s' /\ kept s' (filter (fun e => negb (id =? fst e)) l).
Proof.
  intros [(I & N & L & U) Z0] H. unfold remove_facet. rewrite erase_id_filter by now rewrite I. eexists. split; [reflexivity|]. split; [|now apply zsorted_delete]. unfold stores. cbn [s_ids s_map]. rewrite (map_filter_fst (fun x => negb (id =? x))), I. split; [reflexivity|]. split; [now apply NoDup_filter|]. split.
  - intros k g Hk. apply filter_In in Hk. destruct Hk as [Hk E]. cbn [fst] in E. unfold zat. rewrite zlookup_delete. destruct (Z.eqb_spec k id) as [->|]; [rewrite Z.eqb_refl in E; discriminate|]. apply (L k g Hk).
  - intros k Hk. unfold zat. rewrite zlookup_delete. destruct (Z.eqb_spec k id) as [->|E]; [reflexivity|]. apply U. intros Hk'. apply Hk. apply filter_In. split; [exact Hk'|]. destruct (Z.eqb_spec id k); [congruence|reflexivity].
Qed.
Lemma kept_run {V} ops : forall (s : stl V) l, kept s l -> proper l ops -> exists s', foldM apply_op ops s = Ok s' /\ kept s' (fold_left book ops l).
Proof.
  induction ops as [|o ops IH]; intros s l K P; [exists s; split; [reflexivity|exact K]|]. destruct P as [P0 P]. cbn [foldM fold_left]. destruct o as [id f|id]; cbn [apply_op bind].
  - apply IH; [now apply kept_add|exact P].
  - destruct (kept_remove s l id K P0) as (s' & -> & K'). cbn [bind]. apply IH; [exact K'|exact P].
Qed.
Lemma kept_facets {V} (s : stl V) l : stores s l -> facets s = Ok (map snd l).
Proof.
  intros (I & _ & L & _). unfold facets. rewrite I. clear I. assert (G : forall k, (forall e, In e k -> In e l) -> mapM (zat (s_map s)) (map fst k) = Ok (map snd k)).
  { induction k as [|[id f] k IH]; intros H; [reflexivity|]. cbn [map fst snd mapM]. rewrite (L id f (H _ (or_introl eq_refl))). cbn [bind]. rewrite IH by (intros; apply H; now right). reflexivity. }
  apply G. auto.
Qed.
Lemma kept_next {V} (s : stl V) l : kept s l -> forall id, In id (map fst l) -> id < next_facet s.
Proof.
  intros [(I & N & L & U) Z0] id H. unfold next_facet. assert (K : In id (zkeys (s_map s))). { apply zlookup_in_keys. apply in_map_iff in H. destruct H as ([k f] & <- & H). specialize (L k f H). unfold zat in L. cbn [fst]. destruct (zlookup k (s_map s)); congruence. }
  destruct (zlast_key (s_map s)) as [m|] eqn:E; [assert (Q := zlast_key_max (s_map s) m id Z0 E K); lia|]. apply zlast_key_none in E. rewrite E in K. destruct K.
Qed.
Lemma kept_append {V} (other : stl V) : forall l2 (s : stl V) l, (forall id f, In (id, f) l2 -> zat (s_map other) id = Ok f) -> kept s l ->
  exists s' ids, foldM (fun acc id => f <- zat (s_map other) id ;; Ok (add_facet acc (next_facet acc) f)) (map fst l2) s = Ok s' /\ kept s' (l ++ combine ids (map snd l2)) /\ length ids = length l2 /\ s_binary s' = s_binary s.
Proof.
  induction l2 as [|[k g] l2 IH]; intros s l H K.
  - exists s, []. cbn. rewrite app_nil_r. auto.
  - cbn [map fst snd foldM]. rewrite (H k g (or_introl eq_refl)). cbn [bind]. assert (K1 : kept (add_facet s (next_facet s) g) (l ++ [(next_facet s, g)])) by (apply kept_add; [exact K|]; intros Q; apply (kept_next s l K) in Q; lia).
    destruct (IH _ _ (fun id f Hf => H id f (or_intror Hf)) K1) as (s' & ids & E & K' & Le & B). exists s', (next_facet s :: ids). split; [exact E|]. cbn [combine length]. rewrite <- app_assoc in K'. split; [exact K'|]. split; [now rewrite Le|exact B].
Qed.

(** After any sequence of additions under new ids and removals of present ids on a new file: exactly the facets added and not removed are stored, under their ids, in the
    order of addition; removed and unknown ids throw; the next id is above all ids in use. *)
Theorem C89_storage : forall {V} (ops : list (sop V)), proper [] ops -> exists s, foldM apply_op ops stl_new = Ok s /\
  let l := fold_left book ops [] in
  s_ids s = map fst l /\ facets s = Ok (map snd l) /\ NoDup (s_ids s) /\ (forall id f, In (id, f) l <-> zat (s_map s) id = Ok f) /\
  (forall id, ~ In id (map fst l) -> zat (s_map s) id = Throw) /\ (forall id, In id (s_ids s) -> id < next_facet s).
Proof.
  intros V ops P. destruct (kept_run ops (@stl_new V) []) as (s & E & K); [split; [|constructor]; split; [reflexivity|]; split; [constructor|]; split; [intros ? ? []|reflexivity]|exact P|]. exists s. split; [exact E|]. cbv zeta. set (l := fold_left book ops []) in *.
  assert (K' := K). destruct K as [(I & N & L & U) Z0]. split; [exact I|]. split; [apply kept_facets; unfold stores; auto|]. split; [now rewrite I|]. split; [|split; [exact U|intros id H; rewrite I in H; now apply (kept_next s l K')]].
  intros id f. split; [apply L|]. intros H. destruct (in_dec Z.eq_dec id (map fst l)) as [J|J]; [|rewrite (U id J) in H; discriminate]. apply in_map_iff in J. destruct J as ([k g] & <- & J). assert (Q := L k g J). cbn [fst] in *. rewrite Q in H. injection H as ->. exact J.
Qed.
Print Assumptions C89_storage.
(** Appending another file: its facets follow the own ones in order, under new ids; the own ones keep their ids. *)
Theorem C89_append : forall {V} (ops ops2 : list (sop V)) s s2, proper [] ops -> proper [] ops2 -> foldM apply_op ops stl_new = Ok s -> foldM apply_op ops2 stl_new = Ok s2 ->
  exists s' fs fs2, stl_add s s2 = Ok s' /\ facets s = Ok fs /\ facets s2 = Ok fs2 /\ facets s' = Ok (fs ++ fs2) /\ NoDup (s_ids s') /\ firstn (length (s_ids s)) (s_ids s') = s_ids s.
Proof.
  intros V ops ops2 s s2 P P2 E E2. assert (K0 : kept (@stl_new V) []) by (split; [|constructor]; split; [reflexivity|]; split; [constructor|]; split; [intros ? ? []|reflexivity]).
  destruct (kept_run ops stl_new [] K0 P) as (t & Et & K). rewrite E in Et. injection Et as <-. destruct (kept_run ops2 stl_new [] K0 P2) as (t & Et & K2). rewrite E2 in Et. injection Et as <-.
  set (l := fold_left book ops []) in *. set (l2 := fold_left book ops2 []) in *. destruct (kept_append s2 l2 s l (proj1 (proj2 (proj2 (proj1 K2)))) K) as (s' & ids & A & K' & Le & _).
  exists s', (map snd l), (map snd l2). split; [unfold stl_add; rewrite (proj1 (proj1 K2)); exact A|]. split; [apply kept_facets, (proj1 K)|]. split; [apply kept_facets, (proj1 K2)|].
  assert (Cs : map snd (combine ids (map snd l2)) = map snd l2) by (rewrite <- (map_length snd l2) in Le; revert Le; generalize (map snd l2); clear; induction ids as [|x ids IH]; intros [|y r] Le; cbn in *; try discriminate; [reflexivity|]; f_equal; apply IH; lia).
  split; [rewrite (kept_facets s' _ (proj1 K')), map_app, Cs; reflexivity|]. destruct K' as [(I' & N' & _) _]. split; [now rewrite I'|]. rewrite I', (proj1 (proj1 K)), map_app, firstn_app, Nat.sub_diag, firstn_O, app_nil_r. apply firstn_all.
Qed.
Print Assumptions C89_append.
Example C89_case : let f (z : Z) := Facet (V := Z) (z, z, z) (0, 0, 0) (1, 0, 0) (0, 1, 0) (0, 0) in let ops := [SAdd 4 (f 1); SAdd 9 (f 2); SAdd 2 (f 3); SRemove 9; SAdd 3 (f 4)] in
  proper [] ops /\ (s <- foldM apply_op ops stl_new ;; facets s) = Ok [f 1; f 3; f 4] /\ (s <- foldM apply_op ops stl_new ;; zat (s_map s) 9) = Throw.
Proof. split; [|split; reflexivity]. cbn. repeat split; intuition discriminate. Qed.
(** A second addition under an id in use replaces the facet and lists it twice: the first facet is lost. *)
Theorem C89_same_id_refuted : exists f g : facet Z, f <> g /\ facets (add_facet (add_facet stl_new 7 f) 7 g) = Ok [g; g].
Proof. exists (Facet (V := Z) (0, 0, 0) (0, 0, 0) (1, 0, 0) (0, 1, 0) (0, 0)), (Facet (V := Z) (0, 0, 1) (0, 0, 0) (1, 0, 0) (0, 1, 0) (0, 0)). split; [discriminate|reflexivity]. Qed.
Print Assumptions C89_same_id_refuted.

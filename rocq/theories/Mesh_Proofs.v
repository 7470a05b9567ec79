From Coq Require Import ZArith List Lia Bool QArith FinFun.
From Verif Require Import Prelude Vec ZMap Mesh_Model Mesh_Spec.
Import ListNotations.
Open Scope Z_scope.

(** ** Generic list facts *)

Lemma vec_at_Ok {A} (l : list A) i a :
  vec_at l i = Ok a <-> 0 <= i /\ nth_error l (Z.to_nat i) = Some a.
Proof.
  unfold vec_at. destruct (Z.ltb_spec i 0).
  - split; [congruence|lia].
  - destruct (nth_error l (Z.to_nat i)); split; intros H'; intuition congruence.
Qed.

Lemma vec_at_nat {A} (l : list A) n : 
  vec_at l (Z.of_nat n) = match nth_error l n with Some a => Ok a | None => Throw end.
Proof.
  unfold vec_at. destruct (Z.ltb_spec (Z.of_nat n) 0); [lia|]. now rewrite Nat2Z.id.
Qed.

Lemma zat_Ok {A} (m : zmap A) k v : zat m k = Ok v <-> zlookup k m = Some v.
Proof. unfold zat. destruct (zlookup k m); split; congruence. Qed.

Lemma zat_Throw {A} (m : zmap A) k : zat m k = Throw <-> zlookup k m = None.
Proof. unfold zat. destruct (zlookup k m); split; congruence. Qed.

Lemma foldM_app {S A} (f : S -> A -> outcome S) l1 l2 s :
  foldM f (l1 ++ l2) s = (s' <- foldM f l1 s ;; foldM f l2 s').
Proof.
  revert s. induction l1 as [|a l1 IH]; intros s; cbn; [reflexivity|].
  destruct (f s a); cbn; auto.
Qed.

Lemma filter_all {A} (p : A -> bool) l : (forall x, In x l -> p x = true) -> filter p l = l.
Proof.
  induction l as [|a l IH]; cbn; intros H; [reflexivity|].
  rewrite (H a) by now left. f_equal. apply IH. intros x Hx. apply H. now right.
Qed.

Lemma erase_first_Some id l l' :
  NoDup l -> erase_first id l = Some l' -> In id l /\ l' = filter (fun x => negb (x =? id)) l.
Proof.
  revert l'. induction l as [|x l IH]; cbn; intros l' Hnd; [congruence|].
  inversion Hnd as [|? ? Hni Hnd']; subst.
  destruct (Z.eqb_spec id x) as [->|Hne].
  - intros [= ->]. split; [now left|]. rewrite Z.eqb_refl; cbn.
    symmetry. apply filter_all. intros y Hy.
    destruct (Z.eqb_spec y x); [subst; contradiction|reflexivity].
  - destruct (erase_first id l) as [l''|] eqn:E; [|congruence].
    intros [= <-]. destruct (IH _ Hnd' eq_refl) as [Hin ->].
    split; [now right|]. destruct (Z.eqb_spec x id); [lia|reflexivity].
Qed.

Lemma erase_first_None id l : erase_first id l = None <-> ~ In id l.
Proof.
  induction l as [|x l IH]; cbn; [tauto|].
  destruct (Z.eqb_spec id x) as [->|Hne].
  - split; [congruence|tauto].
  - destruct (erase_first id l); split; try congruence.
    + intros Hni. exfalso. apply Hni. right. destruct (in_dec Z.eq_dec id l); [assumption|].
      apply IH in n. congruence.
    + intros _ [->|Hin]; [lia|]. now apply IH in Hin.
Qed.

(** ** Representation invariant *)

(** Concrete table [t] represents ledger [l]. *)
Record repr {A} (t : table A) (l : list (entry A)) : Prop := {
  r_ids : t_ids t = map en_id (live l);
  r_nodup : NoDup (map en_id (live l));
  r_sorted : zsorted (t_map t);
  r_map : forall id v, zlookup id (t_map t) = Some v <-> In (Entry id v true) l;
  r_idx : forall id k, zlookup id (t_idx t) = Some k <->
            exists n v, k = Z.of_nat n /\ nth_error l n = Some (Entry id v true);
  r_ctr : t_ctr t = zlen l
}.

Lemma in_live {A} (l : list (entry A)) id :
  In id (map en_id (live l)) <-> exists v, In (Entry id v true) l.
Proof.
  unfold live. rewrite in_map_iff. split.
  - intros [[i v b] [Hi Hin]]. cbn in Hi; subst. apply filter_In in Hin. cbn in Hin.
    destruct Hin as [Hin ->]. eauto.
  - intros [v Hin]. exists (Entry id v true). split; [reflexivity|]. apply filter_In. auto.
Qed.

Lemma repr_present {A} (t : table A) l id : repr t l -> (present l id <-> zlookup id (t_map t) <> None).
Proof.
  intros R. unfold present. rewrite in_live. split.
  - intros [v Hv]. apply (r_map _ _ R) in Hv. congruence.
  - destruct (zlookup id (t_map t)) as [v|] eqn:E; [|congruence].
    intros _. exists v. now apply (r_map _ _ R).
Qed.

Lemma repr_empty {A} : repr (@t_empty A) [].
Proof.
  constructor; cbn; try easy.
  - constructor.
  - apply zsorted_empty.
  - intros id k. split; [congruence|]. intros (n & v & _ & H). destruct n; cbn in H; congruence.
Qed.

Lemma repr_add {A} (t : table A) l id v :
  repr t l -> ~ present l id -> repr (t_add t id v) (ledger_step l (Add id v)).
Proof.
  intros R Hnp. cbn. constructor; cbn.
  - unfold live. rewrite filter_app, map_app. cbn. now rewrite (r_ids _ _ R).
  - unfold live. rewrite filter_app, map_app. cbn.
    apply NoDup_Add with (a := id) (l := map en_id (filter en_live l)).
    + replace (map en_id (filter en_live l)) with (map en_id (filter en_live l) ++ []) at 1
        by apply app_nil_r.
      apply Add_app.
    + split; [apply (r_nodup _ _ R)|exact Hnp].
  - apply zsorted_insert, (r_sorted _ _ R).
  - intros id' v'. rewrite zlookup_insert, in_app_iff. cbn.
    destruct (Z.eqb_spec id' id) as [->|Hne].
    + split.
      * intros [= ->]. right; now left.
      * intros [Hin|[[= ->]|[]]]; [|reflexivity].
        exfalso. apply Hnp. unfold present. apply in_live. eauto.
    + rewrite (r_map _ _ R). split; [now left|].
      intros [Hin|[[= -> ->]|[]]]; [assumption|lia].
  - intros id' k. rewrite zlookup_insert.
    destruct (Z.eqb_spec id' id) as [->|Hne].
    + rewrite (r_ctr _ _ R). unfold zlen. split.
      * intros [= <-]. exists (length l), v. split; [reflexivity|].
        rewrite nth_error_app2 by lia. now rewrite Nat.sub_diag.
      * intros (n & v' & -> & Hn).
        destruct (Nat.lt_ge_cases n (length l)) as [Hlt|Hge].
        -- rewrite nth_error_app1 in Hn by assumption. exfalso. apply Hnp. unfold present.
           apply in_live. exists v'. eapply nth_error_In; eauto.
        -- rewrite nth_error_app2 in Hn by assumption.
           destruct (n - length l)%nat as [|m] eqn:E; cbn in Hn; [|destruct m; cbn in Hn; congruence].
           f_equal. lia.
    + rewrite (r_idx _ _ R). split.
      * intros (n & v' & -> & Hn). exists n, v'. split; [reflexivity|].
        rewrite nth_error_app1; [assumption|]. apply nth_error_Some. congruence.
      * intros (n & v' & -> & Hn). exists n, v'. split; [reflexivity|].
        destruct (Nat.lt_ge_cases n (length l)) as [Hlt|Hge].
        -- now rewrite nth_error_app1 in Hn by assumption.
        -- rewrite nth_error_app2 in Hn by assumption.
           destruct (n - length l)%nat as [|m]; cbn in Hn; [congruence|destruct m; cbn in Hn; congruence].
  - rewrite (r_ctr _ _ R). unfold zlen. rewrite app_length. cbn. lia.
Qed.

Definition kill {A} (id : Z) (e : entry A) : entry A :=
  if en_live e && (en_id e =? id) then Entry (en_id e) (en_val e) false else e.

Lemma live_kill {A} id (l : list (entry A)) :
  live (map (kill id) l) = filter (fun e => negb (en_id e =? id)) (live l).
Proof.
  unfold live. induction l as [|[i v b] l IH]; cbn; [reflexivity|].
  unfold kill at 1 2. cbn. destruct b; cbn; [|exact IH].
  destruct (Z.eqb_spec i id); cbn; rewrite IH; reflexivity.
Qed.

Lemma kill_live_inv {A} id id' (v : A) e :
  kill id e = Entry id' v true <-> e = Entry id' v true /\ id' <> id.
Proof.
  destruct e as [i w b]. unfold kill; cbn. destruct b; cbn.
  - destruct (Z.eqb_spec i id); cbn.
    + split; [congruence|]. intros [[= -> ->] Hne]. congruence.
    + split; [intros [= -> ->]; auto|]. now intros [[= -> ->] _].
  - split; [congruence|]. intros [[=] _].
Qed.

Lemma map_filter_comm {A B} (f : A -> B) (p : B -> bool) l :
  map f (filter (fun x => p (f x)) l) = filter p (map f l).
Proof. induction l as [|a l IH]; cbn; [reflexivity|]. destruct (p (f a)); cbn; now rewrite IH. Qed.

Lemma NoDup_filter_ids (p : Z -> bool) l : NoDup l -> NoDup (filter p l).
Proof.
  induction 1; cbn; [constructor|]. destruct (p x); [constructor; [|assumption]|assumption].
  rewrite filter_In. tauto.
Qed.

Lemma repr_remove {A} (t : table A) l id :
  repr t l -> present l id ->
  exists t', t_remove t id = Ok t' /\ repr t' (ledger_step l (Remove id)).
Proof.
  intros R Hp. unfold t_remove.
  destruct (erase_first id (t_ids t)) as [ids'|] eqn:E.
  2:{ apply erase_first_None in E. exfalso. apply E. rewrite (r_ids _ _ R). exact Hp. }
  apply erase_first_Some in E; [|rewrite (r_ids _ _ R); apply (r_nodup _ _ R)].
  destruct E as [_ ->]. eexists. split; [reflexivity|].
  cbn [ledger_step]. change (fun e : entry A => if en_live e && (en_id e =? id)
                               then Entry (en_id e) (en_val e) false else e) with (@kill A id).
  constructor; cbn.
  - rewrite live_kill, (r_ids _ _ R). symmetry.
    exact (map_filter_comm en_id (fun x => negb (x =? id)) (live l)).
  - rewrite live_kill.
    rewrite (map_filter_comm en_id (fun x => negb (x =? id)) (live l)).
    apply NoDup_filter_ids, (r_nodup _ _ R).
  - apply zsorted_delete, (r_sorted _ _ R).
  - intros id' v. rewrite zlookup_delete, in_map_iff.
    destruct (Z.eqb_spec id' id) as [->|Hne].
    + split; [congruence|]. intros (e & He & _). apply kill_live_inv in He. tauto.
    + rewrite (r_map _ _ R). split.
      * intros Hin. exists (Entry id' v true). split; [|assumption]. apply kill_live_inv. auto.
      * intros (e & He & Hin). apply kill_live_inv in He. now destruct He as [-> _].
  - intros id' k. rewrite zlookup_delete.
    destruct (Z.eqb_spec id' id) as [->|Hne].
    + split; [congruence|]. intros (n & v & _ & Hn).
      rewrite nth_error_map in Hn. destruct (nth_error l n) as [e|]; cbn in Hn; [|congruence].
      injection Hn as He. apply kill_live_inv in He. tauto.
    + rewrite (r_idx _ _ R). split; intros (n & v & -> & Hn); exists n, v; (split; [reflexivity|]).
      * rewrite nth_error_map, Hn. cbn. f_equal. apply kill_live_inv. auto.
      * rewrite nth_error_map in Hn. destruct (nth_error l n) as [e|]; cbn in Hn; [|congruence].
        injection Hn as He. apply kill_live_inv in He. destruct He as [-> _]. reflexivity.
  - rewrite (r_ctr _ _ R). unfold zlen. now rewrite map_length.
Qed.

Lemma run_repr_from {A} (ops : list (op A)) t l :
  repr t l -> valid_from l ops ->
  exists t', foldM exec ops t = Ok t' /\ repr t' (fold_left ledger_step ops l).
Proof.
  revert t l. induction ops as [|o ops IH]; intros t l R Hv; cbn.
  - eauto.
  - destruct Hv as [Ho Hv]. destruct o as [id v|id].
    + cbn. apply IH; [|exact Hv]. now apply (repr_add t l id v).
    + destruct (repr_remove t l id R Ho) as (t' & Hr & R'). cbn [exec]. rewrite Hr. cbn.
      now apply IH.
Qed.

Lemma run_repr {A} (ops : list (op A)) :
  valid ops -> exists t, run ops = Ok t /\ repr t (ledger ops).
Proof. intros Hv. apply run_repr_from; [apply repr_empty|exact Hv]. Qed.

(** ** Consequences *)

Lemma repr_wf {A} (t : table A) l : repr t l -> wf_table t.
Proof.
  intros R. split; [|split].
  - rewrite (r_ids _ _ R). apply (r_nodup _ _ R).
  - apply (r_sorted _ _ R).
  - intros id. rewrite (r_ids _ _ R). apply (repr_present t l id R).
Qed.

Lemma repr_get {A} (t : table A) l p e :
  repr t l -> nth_error (live l) p = Some e ->
  t_id t (Z.of_nat p) = Ok (en_id e) /\ t_get t (en_id e) = Ok (en_val e).
Proof.
  intros R Hn. unfold t_id, t_get. rewrite vec_at_nat, (r_ids _ _ R), nth_error_map, Hn. cbn.
  split; [reflexivity|]. apply zat_Ok, (r_map _ _ R).
  apply nth_error_In in Hn. unfold live in Hn. apply filter_In in Hn.
  destruct e as [i v b]; cbn in *. destruct Hn as [Hin ->]. exact Hin.
Qed.

Lemma repr_absent {A} (t : table A) l id :
  repr t l -> ~ present l id -> t_get t id = Throw /\ t_index t id = Throw.
Proof.
  intros R Hnp. split.
  - apply zat_Throw. destruct (zlookup id (t_map t)) eqn:E; [|reflexivity].
    exfalso. apply Hnp. apply (repr_present t l id R). congruence.
  - apply zat_Throw. destruct (zlookup id (t_idx t)) as [k|] eqn:E; [|reflexivity].
    exfalso. apply Hnp. apply (r_idx _ _ R) in E. destruct E as (n & v & _ & Hn).
    apply in_live. exists v. eapply nth_error_In; eauto.
Qed.

Lemma repr_index {A} (t : table A) l n id v :
  repr t l -> nth_error l n = Some (Entry id v true) -> t_index t id = Ok (Z.of_nat n).
Proof. intros R Hn. apply zat_Ok, (r_idx _ _ R). eauto. Qed.

(** Position in the live list against position in the ledger. *)
Lemma firstn_S_nth {A} (l : list A) n a :
  nth_error l n = Some a -> firstn (S n) l = firstn n l ++ [a].
Proof.
  revert n. induction l as [|x l IH]; intros n Hn; [destruct n; cbn in Hn; congruence|].
  destruct n as [|n]; cbn in Hn; [injection Hn as ->; reflexivity|].
  cbn [firstn app]. f_equal. now apply IH.
Qed.

Lemma nth_error_split_len {A} (l : list A) n a :
  nth_error l n = Some a -> l = firstn n l ++ a :: skipn (S n) l.
Proof.
  intros Hn. rewrite <- (firstn_skipn (S n) l) at 1. rewrite (firstn_S_nth _ _ _ Hn).
  now rewrite <- app_assoc.
Qed.

Lemma live_firstn_le {A} (l : list (entry A)) n : (length (live (firstn n l)) <= n)%nat.
Proof.
  unfold live. etransitivity; [|apply (firstn_le_length n l)].
  induction (firstn n l) as [|e k IH]; cbn; [lia|]. destruct (en_live e); cbn; lia.
Qed.

Lemma filter_length_eq {A} (p : A -> bool) l :
  length (filter p l) = length l <-> Forall (fun x => p x = true) l.
Proof.
  induction l as [|a l IH]; cbn; [split; [constructor|reflexivity]|].
  assert (H : (length (filter p l) <= length l)%nat).
  { clear. induction l as [|b l IH]; cbn; [lia|]. destruct (p b); cbn; lia. }
  destruct (p a) eqn:E; cbn.
  - split.
    + intros Hl. constructor; [assumption|]. apply IH. lia.
    + intros Hf. inversion Hf; subst. f_equal. now apply IH.
  - split; [lia|]. intros Hf. inversion Hf; congruence.
Qed.

Lemma live_position {A} (l : list (entry A)) n e :
  nth_error l n = Some e -> en_live e = true ->
  nth_error (live l) (length (live (firstn n l))) = Some e.
Proof.
  intros Hn He. rewrite (nth_error_split_len l n e Hn) at 1. unfold live.
  rewrite filter_app. cbn. rewrite He.
  rewrite nth_error_app2 by lia. now rewrite Nat.sub_diag.
Qed.

Lemma NoDup_nth_error_inj (l : list Z) i j a :
  NoDup l -> nth_error l i = Some a -> nth_error l j = Some a -> i = j.
Proof.
  intros Hnd Hi Hj. apply NoDup_nth_error with (l := l); [assumption| |congruence].
  apply nth_error_Some. congruence.
Qed.

Lemma repr_stale {A} (t : table A) l n p id v :
  repr t l -> nth_error l n = Some (Entry id v true) -> t_id t (Z.of_nat p) = Ok id ->
  (p <= n)%nat /\ (p = n <-> forall k e, (k < n)%nat -> nth_error l k = Some e -> en_live e = true).
Proof.
  intros R Hn Hp.
  assert (Hpos := live_position l n _ Hn eq_refl).
  unfold t_id in Hp. rewrite vec_at_nat, (r_ids _ _ R) in Hp.
  assert (Hpe : p = length (live (firstn n l))).
  { apply (NoDup_nth_error_inj (map en_id (live l)) _ _ id (r_nodup _ _ R)).
    - destruct (nth_error (map en_id (live l)) p); congruence.
    - rewrite nth_error_map, Hpos. reflexivity. }
  assert (Hlen : length (firstn n l) = n).
  { apply firstn_length_le. assert (n < length l)%nat by (apply nth_error_Some; congruence). lia. }
  split; [rewrite Hpe; apply live_firstn_le|].
  rewrite Hpe. rewrite <- Hlen at 2. unfold live. rewrite filter_length_eq, Forall_forall.
  split.
  - intros H k e Hk Hke. apply H.
    rewrite <- (firstn_skipn n l) in Hke. rewrite nth_error_app1 in Hke by lia.
    eapply nth_error_In; eauto.
  - intros H e He. apply In_nth_error in He. destruct He as [k Hk].
    assert (k < length (firstn n l))%nat by (apply nth_error_Some; congruence).
    apply (H k e); [lia|]. rewrite <- (firstn_skipn n l), nth_error_app1; assumption.
Qed.

Lemma repr_size {A} (t : table A) l : repr t l -> t_size t = zlen (live l).
Proof. intros R. unfold t_size, zlen. rewrite (r_ids _ _ R), map_length. reflexivity. Qed.

(** ** Removal of an absent id *)
Lemma remove_absent_UB {A} (t : table A) id : ~ In id (t_ids t) -> t_remove t id = UB.
Proof. intros H. unfold t_remove. apply erase_first_None in H. now rewrite H. Qed.

(** ** Fresh ids: any operations, including repeated ids *)

Lemma exec_sorted {A} (t t' : table A) o : zsorted (t_map t) -> exec t o = Ok t' -> zsorted (t_map t').
Proof.
  intros Hs. destruct o as [id v|id]; cbn.
  - intros [= <-]. now apply zsorted_insert.
  - unfold t_remove. destruct (erase_first id (t_ids t)); [|congruence].
    intros [= <-]. now apply zsorted_delete.
Qed.

Lemma foldM_exec_sorted {A} (ops : list (op A)) t t' :
  zsorted (t_map t) -> foldM exec ops t = Ok t' -> zsorted (t_map t').
Proof.
  revert t. induction ops as [|o ops IH]; intros t Hs; cbn; [intros [= <-]; assumption|].
  destruct (exec t o) as [t1| |] eqn:E; cbn; try congruence.
  intros H. apply (IH t1); [|assumption]. eapply exec_sorted; eauto.
Qed.

Lemma t_next_fresh {A} (t : table A) :
  zsorted (t_map t) ->
  zlookup (t_next t) (t_map t) = None /\
  (forall id, zlookup id (t_map t) <> None -> id < t_next t).
Proof.
  intros Hs. unfold t_next.
  destruct (zlast_key (t_map t)) as [k|] eqn:E.
  - assert (H : forall id, zlookup id (t_map t) <> None -> id < k + 1).
    { intros id Hid. apply zlookup_in_keys in Hid. pose proof (zlast_key_max _ _ _ Hs E Hid). lia. }
    split; [|exact H].
    destruct (zlookup (k + 1) (t_map t)) eqn:E'; [|reflexivity].
    specialize (H (k + 1) ltac:(congruence)). lia.
  - apply zlast_key_none in E. rewrite E. cbn. split; [reflexivity|congruence].
Qed.

Lemma t_next_empty {A} (t : table A) : t_map t = [] -> t_next t = 0.
Proof. intros H. unfold t_next. now rewrite H. Qed.

(** ** index_from *)

Lemma index_from_lookup ids : forall i0 m,
  NoDup ids ->
  (forall n id, nth_error ids n = Some id -> zlookup id (index_from ids i0 m) = Some (i0 + Z.of_nat n)) /\
  (forall id, ~ In id ids -> zlookup id (index_from ids i0 m) = zlookup id m).
Proof.
  induction ids as [|x ids IH]; intros i0 m Hnd; cbn.
  - split; [intros n id Hn; destruct n; cbn in Hn; congruence|reflexivity].
  - inversion Hnd as [|? ? Hni Hnd']; subst.
    destruct (IH (i0 + 1) (zinsert x i0 m) Hnd') as [H1 H2]. split.
    + intros [|n] id Hn; cbn in Hn.
      * injection Hn as ->. rewrite H2 by assumption. rewrite zlookup_insert_eq. f_equal. lia.
      * rewrite (H1 n id Hn). f_equal. lia.
    + intros id Hid. rewrite H2 by tauto. apply zlookup_insert_ne. tauto.
Qed.

Lemma t_rebuild_indexed {A} (t : table A) : NoDup (t_ids t) -> indexed (t_rebuild t).
Proof.
  intros Hnd. destruct (index_from_lookup (t_ids t) 0 zempty Hnd) as [H1 H2]. split.
  - intros i id Hi. unfold t_id in Hi. cbn in Hi. apply vec_at_Ok in Hi. destruct Hi as [Hi0 Hi].
    apply zat_Ok. cbn. rewrite (H1 _ _ Hi). f_equal. lia.
  - intros id Hid. apply zat_Throw. cbn. rewrite H2; [reflexivity|exact Hid].
Qed.

(** ** Histories of insertions only *)

Definition adds {A} (ps : list (Z * A)) : list (op A) := map (fun p => Add (fst p) (snd p)) ps.

Lemma ledger_adds_from {A} (ps : list (Z * A)) l :
  fold_left ledger_step (adds ps) l = l ++ map (fun p => Entry (fst p) (snd p) true) ps.
Proof.
  revert l. induction ps as [|[id v] ps IH]; intros l; cbn; [now rewrite app_nil_r|].
  unfold adds in IH. rewrite IH. now rewrite <- app_assoc.
Qed.

Lemma live_all {A} (ps : list (Z * A)) :
  live (map (fun p => Entry (fst p) (snd p) true) ps) = map (fun p => Entry (fst p) (snd p) true) ps.
Proof. unfold live. apply filter_all. intros x Hx. apply in_map_iff in Hx. now destruct Hx as (p & <- & _). Qed.

Lemma valid_adds_from {A} (ps qs : list (Z * A)) :
  NoDup (map fst (qs ++ ps)) ->
  valid_from (map (fun p => Entry (fst p) (snd p) true) qs) (adds ps).
Proof.
  revert qs. induction ps as [|[id v] ps IH]; intros qs Hnd; cbn; [exact I|]. split.
  - unfold present. rewrite live_all, map_map. cbn.
    rewrite map_app in Hnd. apply NoDup_remove_2 in Hnd. cbn in Hnd.
    intros Hin. apply Hnd. apply in_or_app. now left.
  - specialize (IH (qs ++ [(id, v)])). rewrite <- app_assoc in IH. specialize (IH Hnd).
    rewrite map_app in IH. exact IH.
Qed.

Lemma valid_adds {A} (ps : list (Z * A)) : NoDup (map fst ps) -> valid (adds ps).
Proof. intros H. exact (valid_adds_from ps [] H). Qed.

Lemma run_adds {A} (ps : list (Z * A)) :
  NoDup (map fst ps) ->
  exists t, run (adds ps) = Ok t /\ repr t (map (fun p => Entry (fst p) (snd p) true) ps).
Proof.
  intros H. destruct (run_repr (adds ps) (valid_adds ps H)) as (t & Ht & R).
  exists t. split; [assumption|]. unfold ledger in R. now rewrite ledger_adds_from in R.
Qed.

Lemma repr_adds_facts {A} (t : table A) ps :
  repr t (map (fun p => Entry (fst p) (snd p) true) ps) ->
  t_ids t = map fst ps /\
  (forall n id v, nth_error ps n = Some (id, v) ->
     t_id t (Z.of_nat n) = Ok id /\ t_index t id = Ok (Z.of_nat n) /\ t_get t id = Ok v) /\
  (forall id, ~ In id (map fst ps) -> t_get t id = Throw /\ t_index t id = Throw) /\
  t_ctr t = zlen ps.
Proof.
  intros R. assert (Hids : t_ids t = map fst ps).
  { rewrite (r_ids _ _ R), live_all, map_map. reflexivity. }
  split; [exact Hids|]. split; [|split].
  - intros n id v Hn.
    assert (Hn' : nth_error (map (fun p => Entry (fst p) (snd p) true) ps) n = Some (Entry id v true)).
    { rewrite nth_error_map, Hn. reflexivity. }
    destruct (repr_get t _ n (Entry id v true) R) as [H1 H2]; [now rewrite live_all|].
    split; [exact H1|]. split; [|exact H2]. eapply repr_index; eauto.
  - intros id Hid. apply (repr_absent t _ id R). unfold present. now rewrite live_all, map_map.
  - rewrite (r_ctr _ _ R). unfold zlen. now rewrite map_length.
Qed.

(** ** Copy *)

Lemma t_copy_fold {A} (t : table A) ids : forall acc,
  (forall id, In id ids -> zlookup id (t_map t) <> None) ->
  exists ps, map fst ps = ids /\
    (forall id v, In (id, v) ps -> zlookup id (t_map t) = Some v) /\
    foldM (fun acc id => v <- zat (t_map t) id ;; Ok (t_add acc id v)) ids acc
    = foldM exec (adds ps) acc.
Proof.
  induction ids as [|id ids IH]; intros acc H.
  - exists []. cbn. split; [reflexivity|]. split; [tauto|reflexivity].
  - destruct (zlookup id (t_map t)) as [v|] eqn:E; [|exfalso; exact (H id (or_introl eq_refl) E)].
    destruct (IH (t_add acc id v)) as (ps & Hps & Hv & Hf).
    { intros id' Hid'. apply H. now right. }
    exists ((id, v) :: ps). cbn. split; [now f_equal|]. split.
    + intros id' v' [[= <- <-]|Hin]; [assumption|now apply Hv].
    + unfold zat. rewrite E. cbn. exact Hf.
Qed.

Lemma t_copy_ok {A} (t : table A) :
  wf_table t ->
  exists t', t_copy t = Ok t' /\ t_ids t' = t_ids t /\ (forall id, t_get t' id = t_get t id) /\
             indexed t' /\ wf_table t' /\ t_ctr t' = t_size t'.
Proof.
  intros (Hnd & Hs & Hk).
  destruct (t_copy_fold t (t_ids t) t_empty) as (ps & Hps & Hv & Hf).
  { intros id Hid. now apply Hk. }
  destruct (run_adds ps) as (t' & Ht' & R); [now rewrite Hps|].
  exists t'. split; [unfold t_copy; rewrite Hf; exact Ht'|].
  destruct (repr_adds_facts t' ps R) as (Hids & Hn & Habs & Hc).
  split; [congruence|]. split; [|split; [|split]].
  - intros id. destruct (in_dec Z.eq_dec id (map fst ps)) as [Hin|Hni].
    + apply in_map_iff in Hin. destruct Hin as ([id' v] & Heq & Hin). cbn in Heq; subst id'.
      destruct (In_nth_error _ _ Hin) as [n Hnn]. destruct (Hn _ _ _ Hnn) as (_ & _ & ->).
      symmetry. apply zat_Ok. now apply Hv.
    + destruct (Habs _ Hni) as [-> _]. symmetry. apply zat_Throw.
      destruct (zlookup id (t_map t)) eqn:E; [|reflexivity].
      exfalso. apply Hni. rewrite Hps. apply Hk. congruence.
  - split.
    + intros i id Hi. unfold t_id in Hi. apply vec_at_Ok in Hi. destruct Hi as [Hi0 Hi].
      rewrite Hids, nth_error_map in Hi.
      destruct (nth_error ps (Z.to_nat i)) as [[id' v]|] eqn:E; cbn in Hi; [|congruence].
      injection Hi as ->. destruct (Hn _ _ _ E) as (_ & -> & _). f_equal. lia.
    + intros id Hid. apply Habs. now rewrite <- Hids.
  - eapply repr_wf; eauto.
  - rewrite Hc. unfold t_size, zlen. rewrite Hids, map_length. reflexivity.
Qed.

(** ** Appending with fresh ids *)

Lemma t_add_next_wf {A} (t : table A) v : wf_table t -> wf_table (t_add t (t_next t) v).
Proof.
  intros (Hnd & Hs & Hk). destruct (t_next_fresh t Hs) as [Hfresh _]. repeat split; cbn.
  - rewrite <- (rev_involutive (t_ids t ++ [t_next t])). apply NoDup_rev. rewrite rev_app_distr. cbn.
    constructor; [|now apply NoDup_rev]. rewrite <- in_rev, Hk. congruence.
  - now apply zsorted_insert.
  - rewrite in_app_iff, zlookup_insert. cbn.
    destruct (Z.eqb_spec id (t_next t)); [congruence|].
    intros [Hin|[|[]]]; [now apply Hk|congruence].
  - rewrite in_app_iff, zlookup_insert. cbn.
    destruct (Z.eqb_spec id (t_next t)); [intros _; right; now left|].
    intros H. left. now apply Hk.
Qed.

(** Positions and indices agree and the counter equals the size: the next insertion will get the
    right index. *)
Definition compact {A} (t : table A) : Prop := indexed t /\ t_ctr t = t_size t.

Lemma t_add_compact {A} (t : table A) id v :
  wf_table t -> ~ In id (t_ids t) -> compact t -> compact (t_add t id v).
Proof.
  intros (Hnd & Hs & Hk) Hni ((H1 & H2) & Hc). split; [split|].
  - intros i id' Hi. unfold t_id in Hi. cbn in Hi. apply vec_at_Ok in Hi. destruct Hi as [Hi0 Hi].
    unfold t_index. cbn. unfold zat. rewrite zlookup_insert.
    destruct (Nat.lt_ge_cases (Z.to_nat i) (length (t_ids t))) as [Hlt|Hge].
    + rewrite nth_error_app1 in Hi by assumption.
      destruct (Z.eqb_spec id' id) as [->|Hne].
      * exfalso. apply Hni. eapply nth_error_In; eauto.
      * apply (H1 i id'). apply vec_at_Ok. auto.
    + rewrite nth_error_app2 in Hi by assumption.
      destruct (Z.to_nat i - length (t_ids t))%nat as [|k] eqn:E;
        cbn in Hi; [|destruct k; cbn in Hi; congruence].
      injection Hi as ->. rewrite Z.eqb_refl. f_equal. rewrite Hc. unfold t_size, zlen. lia.
  - intros id' Hid'. cbn in Hid'. rewrite in_app_iff in Hid'. cbn in Hid'.
    unfold t_index, zat. cbn. rewrite zlookup_insert_ne by tauto.
    apply H2. tauto.
  - cbn. rewrite Hc. unfold t_size, zlen. cbn. rewrite app_length. cbn. lia.
Qed.

(** [t] is [a] with the values [vs] appended under new ids. *)
Record extends {A} (a t : table A) (vs : list A) : Prop := {
  x_wf : wf_table t;
  x_old : forall id, In id (t_ids a) -> t_get t id = t_get a id;
  x_ids : exists l, t_ids t = t_ids a ++ l /\ length l = length vs /\
            forall n id, nth_error l n = Some id ->
              exists v, nth_error vs n = Some v /\ t_get t id = Ok v;
  x_compact : compact a -> compact t
}.

Lemma extends_refl {A} (a : table A) : wf_table a -> extends a a [].
Proof.
  intros Hwf. constructor; auto. exists []. rewrite app_nil_r. repeat split.
  intros n id Hn. destruct n; cbn in Hn; congruence.
Qed.

Lemma extends_snoc {A} (a t : table A) vs v :
  extends a t vs -> extends a (t_add t (t_next t) v) (vs ++ [v]).
Proof.
  intros [Hwf Hold (l & Hl & Hlen & Hn) Hcp].
  pose proof Hwf as (Hnd & Hs & Hk). destruct (t_next_fresh t Hs) as [Hfresh _].
  assert (Hni : ~ In (t_next t) (t_ids t)) by (rewrite Hk; congruence).
  constructor.
  - now apply t_add_next_wf.
  - intros id Hid. rewrite <- (Hold id Hid). unfold t_get, zat. cbn.
    rewrite zlookup_insert_ne; [reflexivity|]. intros <-. apply Hni. rewrite Hl.
    apply in_or_app. now left.
  - exists (l ++ [t_next t]). cbn. rewrite Hl, <- app_assoc. split; [reflexivity|].
    rewrite !app_length. cbn. split; [lia|].
    intros n id Hnth. destruct (Nat.lt_ge_cases n (length l)) as [Hlt|Hge].
    + rewrite nth_error_app1 in Hnth by assumption. destruct (Hn n id Hnth) as (w & Hw & Hg).
      exists w. split; [rewrite nth_error_app1; [assumption|lia]|].
      rewrite <- Hg. unfold t_get, zat. cbn. rewrite zlookup_insert_ne; [reflexivity|].
      intros <-. apply Hni. rewrite Hl. apply in_or_app. right. eapply nth_error_In; eauto.
    + rewrite nth_error_app2 in Hnth by assumption.
      destruct (n - length l)%nat as [|k] eqn:E; cbn in Hnth; [|destruct k; cbn in Hnth; congruence].
      injection Hnth as <-. exists v. split.
      * rewrite nth_error_app2 by lia. replace (n - length vs)%nat with 0%nat by lia. reflexivity.
      * unfold t_get. apply zat_Ok. cbn. apply zlookup_insert_eq.
  - intros Hc. apply t_add_compact; auto.
Qed.

Lemma at_pos_lookup {A} (t : table A) n id :
  nth_error (t_ids t) n = Some id -> at_pos t n = t_get t id.
Proof. intros H. unfold at_pos, t_id. rewrite vec_at_nat, H. reflexivity. Qed.

Lemma extends_at_pos {A} (a t : table A) vs :
  extends a t vs ->
  t_size t = t_size a + zlen vs /\
  (forall n, (n < length (t_ids a))%nat -> at_pos t n = at_pos a n) /\
  (forall n v, nth_error vs n = Some v -> at_pos t (length (t_ids a) + n) = Ok v).
Proof.
  intros [Hwf Hold (l & Hl & Hlen & Hn) Hcp]. split; [|split].
  - unfold t_size, zlen. rewrite Hl, app_length. lia.
  - intros n Hlt. destruct (nth_error (t_ids a) n) as [id|] eqn:E.
    + rewrite (at_pos_lookup a n id E). rewrite <- (Hold id) by (eapply nth_error_In; eauto).
      apply at_pos_lookup. rewrite Hl, nth_error_app1 by assumption. exact E.
    + apply nth_error_None in E. lia.
  - intros n v Hv. assert (n < length l)%nat by (rewrite Hlen; apply nth_error_Some; congruence).
    destruct (nth_error l n) as [id|] eqn:E; [|apply nth_error_None in E; lia].
    destruct (Hn n id E) as (w & Hw & Hg). assert (w = v) by congruence. subst.
    rewrite <- Hg. apply at_pos_lookup. rewrite Hl, nth_error_app2 by lia.
    now replace (length (t_ids a) + n - length (t_ids a))%nat with n by lia.
Qed.

(** A counting loop over positions is a loop over the ids. *)
Lemma zrange_S n : zrange (S n) = zrange n ++ [Z.of_nat n].
Proof. unfold zrange. rewrite seq_S, map_app. reflexivity. Qed.

Lemma foldM_positions {S A} (b : table A) (body : S -> Z -> A -> outcome S) s :
  wf_table b ->
  foldM (fun acc i => id <- t_id b i ;; v <- t_get b id ;; body acc id v)
        (zrange (length (t_ids b))) s
  = foldM (fun acc id => v <- t_get b id ;; body acc id v) (t_ids b) s.
Proof.
  intros _.
  assert (H : forall n, (n <= length (t_ids b))%nat ->
     foldM (fun acc i => id <- t_id b i ;; v <- t_get b id ;; body acc id v) (zrange n) s
     = foldM (fun acc id => v <- t_get b id ;; body acc id v) (firstn n (t_ids b)) s).
  { induction n as [|n IH]; intros Hle; [reflexivity|].
    destruct (nth_error (t_ids b) n) as [id|] eqn:E; [|apply nth_error_None in E; lia].
    rewrite zrange_S, foldM_app, IH by lia. rewrite (firstn_S_nth _ _ _ E), foldM_app.
    destruct (foldM _ (firstn n (t_ids b)) s) as [s'| |]; cbn; try reflexivity.
    unfold t_id. rewrite vec_at_nat, E. cbn. reflexivity. }
  rewrite (H (length (t_ids b))) by lia. now rewrite firstn_all.
Qed.

(** ** addMesh *)

Lemma remap_ok new l :
  (forall n, In n l -> zlookup n new <> None) ->
  exists l', remap new l = Ok l' /\ length l' = length l /\
    forall k n n', nth_error l k = Some n -> nth_error l' k = Some n' -> zlookup n new = Some n'.
Proof.
  unfold remap. induction l as [|n l IH]; intros H; cbn.
  - exists []. repeat split. intros k n n' Hk. destruct k; cbn in Hk; congruence.
  - destruct (zlookup n new) as [n'|] eqn:E; [|exfalso; exact (H n (or_introl eq_refl) E)].
    destruct IH as (l' & Hl & Hlen & Hk); [intros m Hm; apply H; now right|].
    exists (n' :: l'). unfold zat at 1. rewrite E. cbn. rewrite Hl. cbn.
    split; [reflexivity|]. split; [now f_equal|].
    intros [|k] m m' Hm Hm'; cbn in Hm, Hm'; [congruence|eauto].
Qed.

Lemma foldM_invariant {S A} (f : S -> A -> outcome S) (P : list A -> S -> Prop) l s :
  P [] s ->
  (forall done a rest s, l = done ++ a :: rest -> P done s -> exists s', f s a = Ok s' /\ P (done ++ [a]) s') ->
  exists s', foldM f l s = Ok s' /\ P l s'.
Proof.
  intros H0 Hstep.
  assert (H : forall rest done s, l = done ++ rest -> P done s ->
     exists s', foldM f rest s = Ok s' /\ P l s').
  { induction rest as [|a rest IH]; intros done s0 Hl HP; cbn.
    - rewrite app_nil_r in Hl. subst. eauto.
    - destruct (Hstep done a rest s0 Hl HP) as (s' & Hs' & HP').
      rewrite Hs'. cbn. apply (IH (done ++ [a])); [|assumption]. now rewrite <- app_assoc. }
  exact (H l [] s eq_refl H0).
Qed.

Lemma wf_get {A} (t : table A) id : wf_table t -> In id (t_ids t) -> exists v, t_get t id = Ok v.
Proof.
  intros (_ & _ & Hk) Hin. apply Hk in Hin. unfold t_get, zat.
  destruct (zlookup id (t_map t)); [eauto|congruence].
Qed.

Lemma wf_get_in {A} (t : table A) id v : wf_table t -> t_get t id = Ok v -> In id (t_ids t).
Proof. intros (_ & _ & Hk) Hg. apply Hk. apply zat_Ok in Hg. congruence. Qed.

Lemma addMesh_nodes_ok (a b : table coord) :
  wf_table a -> wf_table b ->
  exists t new vs, addMesh_nodes a b = Ok (t, new) /\ extends a t vs /\
    map (t_get b) (t_ids b) = map Ok vs /\
    (forall id, In id (t_ids b) ->
       exists id', zlookup id new = Some id' /\ t_get t id' = t_get b id /\ In id' (t_ids t)).
Proof.
  intros Ha Hb. unfold addMesh_nodes.
  rewrite (foldM_positions b
     (fun acc id v => Ok (t_add (fst acc) (t_next (fst acc)) v, zinsert id (t_next (fst acc)) (snd acc)))
     (a, zempty) Hb).
  destruct (foldM_invariant
    (fun acc id => v <- t_get b id ;;
       Ok (t_add (fst acc) (t_next (fst acc)) v, zinsert id (t_next (fst acc)) (snd acc)))
    (fun done s => exists vs, extends a (fst s) vs /\ map (t_get b) done = map Ok vs /\
       forall id, In id done -> exists id', zlookup id (snd s) = Some id' /\
             t_get (fst s) id' = t_get b id /\ In id' (t_ids (fst s)))
    (t_ids b) (a, zempty)) as ([t new] & Hf & vs & Hx & Hm & Hid).
  - exists []. split; [now apply extends_refl|]. split; [reflexivity|]. intros id [].
  - intros done id rest [t new] Hl (vs & Hx & Hm & Hid). cbn [fst snd] in *.
    destruct (wf_get b id Hb) as [v Hv]; [rewrite Hl; apply in_or_app; right; now left|].
    rewrite Hv. cbn. eexists. split; [reflexivity|]. cbn [fst snd].
    exists (vs ++ [v]). split; [now apply extends_snoc|]. split.
    + rewrite !map_app, Hm. cbn. now rewrite Hv.
    + destruct Hb as (Hnd & _ & _). rewrite Hl in Hnd. apply NoDup_remove_2 in Hnd.
      assert (Hs : zsorted (t_map t)) by apply (x_wf _ _ _ Hx).
      destruct (t_next_fresh t Hs) as [Hfresh _].
      intros id' Hin. apply in_app_or in Hin. destruct Hin as [Hin|[<-|[]]].
      * destruct (Hid id' Hin) as (id'' & Hlk & Hg & Hini). exists id''. split; [|split].
        -- rewrite zlookup_insert_ne; [assumption|]. intros ->. apply Hnd.
           apply in_or_app. now left.
        -- rewrite <- Hg. unfold t_get, zat. cbn. rewrite zlookup_insert_ne; [reflexivity|].
           intros <-. pose proof (x_wf _ _ _ Hx) as (_ & _ & Hk). apply Hk in Hini. congruence.
        -- cbn. apply in_or_app. now left.
      * exists (t_next t). split; [apply zlookup_insert_eq|]. split.
        -- rewrite Hv. apply zat_Ok. cbn. apply zlookup_insert_eq.
        -- cbn. apply in_or_app. right. now left.
  - exists t, new, vs. cbn [fst snd] in *. auto.
Qed.

(** Faces and elements are treated alike: [nd]/[upd] read and write the connectivity. *)
Lemma addMesh_cells_ok {A} (nd : A -> list Z) (upd : A -> list Z -> A) new (a b : table A) :
  wf_table a -> wf_table b ->
  (forall id v, t_get b id = Ok v -> forall n, In n (nd v) -> zlookup n new <> None) ->
  exists t vs, foldM (fun acc i => id <- t_id b i ;; v <- t_get b id ;; l <- remap new (nd v) ;;
           Ok (t_add acc (t_next acc) (upd v l))) (zrange (length (t_ids b))) a = Ok t /\
    extends a t vs /\ length vs = length (t_ids b) /\
    forall n id, nth_error (t_ids b) n = Some id ->
      exists v l, t_get b id = Ok v /\ remap new (nd v) = Ok l /\ nth_error vs n = Some (upd v l).
Proof.
  intros Ha Hb Hnew.
  rewrite (foldM_positions b (fun acc _ v => l <- remap new (nd v) ;;
           Ok (t_add acc (t_next acc) (upd v l))) a Hb).
  destruct (foldM_invariant
    (fun acc id => v <- t_get b id ;; l <- remap new (nd v) ;; Ok (t_add acc (t_next acc) (upd v l)))
    (fun done t => exists vs, extends a t vs /\ length vs = length done /\
        forall n id, nth_error done n = Some id ->
        exists v l, t_get b id = Ok v /\ remap new (nd v) = Ok l /\ nth_error vs n = Some (upd v l))
    (t_ids b) a) as (t & Hf & vs & Hx & Hlen & Hn).
  - exists []. split; [now apply extends_refl|]. split; [reflexivity|].
    intros n id Hn. destruct n; cbn in Hn; congruence.
  - intros done id rest t Hl (vs & Hx & Hlen & Hn).
    destruct (wf_get b id Hb) as [v Hv]; [rewrite Hl; apply in_or_app; right; now left|].
    destruct (remap_ok new (nd v)) as (l & Hr & _ & _); [eapply Hnew; eauto|].
    rewrite Hv. cbn. rewrite Hr. cbn. eexists. split; [reflexivity|].
    exists (vs ++ [upd v l]). split; [now apply extends_snoc|].
    split; [rewrite !app_length; cbn; lia|].
    intros n id' Hnth. destruct (Nat.lt_ge_cases n (length done)) as [Hlt|Hge].
    + rewrite nth_error_app1 in Hnth by assumption.
      destruct (Hn n id' Hnth) as (v' & l' & ? & ? & ?). exists v', l'.
      split; [assumption|]. split; [assumption|]. rewrite nth_error_app1; [assumption|lia].
    + rewrite nth_error_app2 in Hnth by assumption.
      destruct (n - length done)%nat as [|k] eqn:E; cbn in Hnth; [|destruct k; cbn in Hnth; congruence].
      injection Hnth as <-. exists v, l. split; [assumption|]. split; [assumption|].
      rewrite nth_error_app2 by lia. now replace (n - length vs)%nat with 0%nat by lia.
  - exists t, vs. auto.
Qed.

Lemma remap_coords (mb mc : mesh) new l l' :
  (forall n, In n l -> exists n', zlookup n new = Some n' /\
       t_get (m_nodes mc) n' = t_get (m_nodes mb) n) ->
  remap new l = Ok l' -> coords mc l' = coords mb l.
Proof.
  unfold coords, remap. revert l'. induction l as [|n l IH]; intros l' H; cbn.
  - now intros [= <-].
  - destruct (H n (or_introl eq_refl)) as (n' & Hn' & Hg). unfold zat at 1. rewrite Hn'. cbn.
    destruct (mapM (zat new) l) as [l1| |] eqn:E; cbn; try congruence.
    intros [= <-]. cbn. rewrite Hg. f_equal. apply IH; [|reflexivity].
    intros m Hm. apply H. now right.
Qed.

Lemma remap_in new l l' n' :
  remap new l = Ok l' -> In n' l' -> exists n, In n l /\ zlookup n new = Some n'.
Proof.
  unfold remap. revert l'. induction l as [|n l IH]; intros l'; cbn.
  - intros [= <-] [].
  - unfold zat at 1. destruct (zlookup n new) as [k|] eqn:E; cbn; [|congruence].
    destruct (mapM (zat new) l) as [l1| |] eqn:E'; cbn; try congruence.
    intros [= <-] [<-|Hin]; [exists n; auto|].
    destruct (IH _ eq_refl Hin) as (m & Hm & Hl). exists m. auto.
Qed.

Theorem addMesh_ok (a b : mesh) :
  wf_mesh a -> wf_mesh b -> refs_ok b ->
  exists c, addMesh a b = Ok c /\ wf_mesh c /\
    (t_size (m_nodes c) = t_size (m_nodes a) + t_size (m_nodes b) /\
     t_size (m_faces c) = t_size (m_faces a) + t_size (m_faces b) /\
     t_size (m_elems c) = t_size (m_elems a) + t_size (m_elems b)) /\
    ((forall id, In id (t_ids (m_nodes a)) -> t_get (m_nodes c) id = t_get (m_nodes a) id) /\
     (forall id, In id (t_ids (m_faces a)) -> t_get (m_faces c) id = t_get (m_faces a) id) /\
     (forall id, In id (t_ids (m_elems a)) -> t_get (m_elems c) id = t_get (m_elems a) id)) /\
    (forall n, (n < length (t_ids (m_nodes a)))%nat -> at_pos (m_nodes c) n = at_pos (m_nodes a) n) /\
    (forall n, (n < length (t_ids (m_nodes b)))%nat ->
       at_pos (m_nodes c) (length (t_ids (m_nodes a)) + n) = at_pos (m_nodes b) n) /\
    (forall n e, at_pos (m_elems b) n = Ok e ->
       exists e', at_pos (m_elems c) (length (t_ids (m_elems a)) + n) = Ok e' /\
         e_type e' = e_type e /\ e_faces e' = e_faces e /\
         coords c (e_nodes e') = coords b (e_nodes e)) /\
    (forall n f, at_pos (m_faces b) n = Ok f ->
       exists f', at_pos (m_faces c) (length (t_ids (m_faces a)) + n) = Ok f' /\
         f_type f' = f_type f /\ f_haspair f' = f_haspair f /\ f_pair f' = f_pair f /\
         coords c (f_nodes f') = coords b (f_nodes f)) /\
    (compact (m_nodes a) -> compact (m_nodes c)) /\ (compact (m_elems a) -> compact (m_elems c)).
Proof.
  intros (Han & Haf & Hae) (Hbn & Hbf & Hbe) (Hre & Hrf).
  destruct (addMesh_nodes_ok _ _ Han Hbn) as (tn & new & vs & Hn & Hxn & Hvs & Hnew).
  destruct (addMesh_cells_ok f_nodes set_f_nodes new (m_faces a) (m_faces b) Haf Hbf)
    as (tf & fs & Hf & Hxf & Hlf & Hnf).
  { intros id v Hv n Hin. specialize (Hrf id v Hv). rewrite Forall_forall in Hrf.
    destruct (Hnew n (Hrf n Hin)) as (n' & -> & _). congruence. }
  destruct (addMesh_cells_ok e_nodes set_e_nodes new (m_elems a) (m_elems b) Hae Hbe)
    as (te & es & He & Hxe & Hle & Hne).
  { intros id v Hv n Hin. specialize (Hre id v Hv). rewrite Forall_forall in Hre.
    destruct (Hnew n (Hre n Hin)) as (n' & -> & _). congruence. }
  exists (Mesh tn tf te).
  assert (Hlv : length vs = length (t_ids (m_nodes b))).
  { apply (f_equal (@length _)) in Hvs. rewrite !map_length in Hvs. lia. }
  destruct (extends_at_pos _ _ _ Hxn) as (Sn & Pn & Qn).
  destruct (extends_at_pos _ _ _ Hxf) as (Sf & Pf & Qf).
  destruct (extends_at_pos _ _ _ Hxe) as (Se & Pe & Qe).
  split; [unfold addMesh; rewrite Hn; cbn [bind snd fst]; unfold addMesh_faces, addMesh_elems;
          rewrite Hf; cbn [bind]; rewrite He; reflexivity|].
  split; [repeat apply conj; try apply (x_wf _ _ _ Hxn); try apply (x_wf _ _ _ Hxf); apply (x_wf _ _ _ Hxe)|].
  cbn [m_nodes m_faces m_elems].
  split. { repeat apply conj; [rewrite Sn|rewrite Sf|rewrite Se]; unfold t_size, zlen; lia. }
  split. { repeat apply conj; [apply (x_old _ _ _ Hxn)|apply (x_old _ _ _ Hxf)|apply (x_old _ _ _ Hxe)]. }
  split; [exact Pn|]. split.
  { intros n Hlt. destruct (nth_error (t_ids (m_nodes b)) n) as [id|] eqn:E; [|apply nth_error_None in E; lia].
    rewrite (at_pos_lookup _ _ _ E).
    assert (E' : nth_error (map (t_get (m_nodes b)) (t_ids (m_nodes b))) n = Some (t_get (m_nodes b) id))
      by (rewrite nth_error_map, E; reflexivity).
    rewrite Hvs, nth_error_map in E'. destruct (nth_error vs n) as [v|] eqn:Ev; cbn in E'; [|congruence].
    injection E' as <-. now apply Qn. }
  split.
  { intros n e Hpos. unfold at_pos, t_id in Hpos. rewrite vec_at_nat in Hpos.
    destruct (nth_error (t_ids (m_elems b)) n) as [id|] eqn:E; cbn in Hpos; [|congruence].
    destruct (Hne n id E) as (v & l & Hv & Hr & Hnth). assert (v = e) by congruence. subst v.
    exists (set_e_nodes e l). split; [now apply Qe|]. split; [reflexivity|]. split; [reflexivity|].
    cbn. apply (remap_coords b (Mesh tn tf te) new); [|assumption].
    intros k Hk. specialize (Hre id e Hv). rewrite Forall_forall in Hre.
    destruct (Hnew k (Hre k Hk)) as (k' & ? & ? & _). exists k'. auto. }
  split.
  { intros n e Hpos. unfold at_pos, t_id in Hpos. rewrite vec_at_nat in Hpos.
    destruct (nth_error (t_ids (m_faces b)) n) as [id|] eqn:E; cbn in Hpos; [|congruence].
    destruct (Hnf n id E) as (v & l & Hv & Hr & Hnth). assert (v = e) by congruence. subst v.
    exists (set_f_nodes e l). split; [now apply Qf|].
    repeat (split; [reflexivity|]).
    cbn. apply (remap_coords b (Mesh tn tf te) new); [|assumption].
    intros k Hk. specialize (Hrf id e Hv). rewrite Forall_forall in Hrf.
    destruct (Hnew k (Hrf k Hk)) as (k' & ? & ? & _). exists k'. auto. }
  split; [apply (x_compact _ _ _ Hxn)|apply (x_compact _ _ _ Hxe)].
Qed.

(** ** renumber *)

Lemma renumber_map_ok {A} (f : A -> outcome A) (t : table A) :
  wf_table t ->
  (forall id v, t_get t id = Ok v -> exists v', f v = Ok v') ->
  exists m, renumber_map f t = Ok m /\ zsorted m /\
    (forall n id, nth_error (t_ids t) n = Some id ->
       exists v v', t_get t id = Ok v /\ f v = Ok v' /\ zlookup (Z.of_nat n) m = Some v') /\
    (forall k, zlookup k m <> None <-> 0 <= k < zlen (t_ids t)).
Proof.
  intros Hwf Hf. unfold renumber_map.
  destruct (foldM_invariant
    (fun acc id => v <- zat (t_map t) id ;; v' <- f v ;; Ok (zinsert (snd acc) v' (fst acc), snd acc + 1))
    (fun done s => snd s = zlen done /\ zsorted (fst s) /\
      (forall n id, nth_error done n = Some id ->
       exists v v', t_get t id = Ok v /\ f v = Ok v' /\ zlookup (Z.of_nat n) (fst s) = Some v') /\
      (forall k, zlookup k (fst s) <> None <-> 0 <= k < zlen done))
    (t_ids t) (zempty, 0)) as ([m k] & Hm & Hk & Hs & H1 & H2).
  - cbn. split; [reflexivity|]. split; [apply zsorted_empty|]. split.
    + intros n id Hn. destruct n; cbn in Hn; congruence.
    + intros k. unfold zlen. cbn. split; [congruence|lia].
  - intros done id rest [m k] Hl (Hk & Hs & H1 & H2). cbn [fst snd] in *.
    destruct (wf_get t id Hwf) as [v Hv]; [rewrite Hl; apply in_or_app; right; now left|].
    destruct (Hf id v Hv) as [v' Hv'].
    unfold t_get in Hv. rewrite Hv. cbn. rewrite Hv'. cbn. eexists. split; [reflexivity|]. cbn [fst snd].
    assert (Hlen : zlen (done ++ [id]) = zlen done + 1) by (unfold zlen; rewrite app_length; cbn; lia).
    split; [lia|]. split; [now apply zsorted_insert|]. split.
    + intros n id' Hnth. destruct (Nat.lt_ge_cases n (length done)) as [Hlt|Hge].
      * rewrite nth_error_app1 in Hnth by assumption.
        destruct (H1 n id' Hnth) as (w & w' & ? & ? & ?). exists w, w'. split; [assumption|].
        split; [assumption|]. rewrite zlookup_insert_ne; [assumption|]. unfold zlen in Hk. lia.
      * rewrite nth_error_app2 in Hnth by assumption.
        destruct (n - length done)%nat as [|j] eqn:E; cbn in Hnth; [|destruct j; cbn in Hnth; congruence].
        injection Hnth as <-. exists v, v'. split; [assumption|]. split; [assumption|].
        replace (Z.of_nat n) with k by (unfold zlen in Hk; lia). apply zlookup_insert_eq.
    + intros j. rewrite zlookup_insert. destruct (Z.eqb_spec j k).
      * split; [|congruence]. intros _. unfold zlen in *. lia.
      * rewrite H2. unfold zlen in *. lia.
  - exists m. cbn [fst snd] in *. rewrite Hm. cbn. auto.
Qed.

Lemma zrange_nth n k : (k < n)%nat -> nth_error (zrange n) k = Some (Z.of_nat k).
Proof.
  intros H. unfold zrange. rewrite nth_error_map.
  rewrite (nth_error_nth' (seq 0 n) 0%nat) by (rewrite seq_length; lia).
  rewrite seq_nth by lia. reflexivity.
Qed.

Lemma zrange_length n : length (zrange n) = n.
Proof. unfold zrange. now rewrite map_length, seq_length. Qed.

Lemma zrange_in n k : In k (zrange n) <-> 0 <= k < Z.of_nat n.
Proof.
  unfold zrange. rewrite in_map_iff. split.
  - intros (i & <- & Hi). apply in_seq in Hi. lia.
  - intros H. exists (Z.to_nat k). split; [lia|]. apply in_seq. lia.
Qed.

Lemma zrange_NoDup n : NoDup (zrange n).
Proof. unfold zrange. apply FinFun.Injective_map_NoDup; [intros i j; lia|apply seq_NoDup]. Qed.

Lemma renumber_table_ok {A} (f : A -> outcome A) (t : table A) :
  wf_table t ->
  (forall id v, t_get t id = Ok v -> exists v', f v = Ok v') ->
  exists t', renumber_table f t = Ok t' /\ wf_table t' /\ indexed t' /\
    t_ids t' = zrange (length (t_ids t)) /\ t_ctr t' = t_ctr t /\
    (forall n id, nth_error (t_ids t) n = Some id ->
       exists v v', t_get t id = Ok v /\ f v = Ok v' /\ t_get t' (Z.of_nat n) = Ok v').
Proof.
  intros Hwf Hf. destruct (renumber_map_ok f t Hwf Hf) as (m & Hm & Hs & H1 & H2).
  unfold renumber_table. rewrite Hm. cbn [bind]. eexists. split; [reflexivity|].
  split; [|split; [|split; [|split]]].
  - repeat split; cbn.
    + apply zrange_NoDup.
    + exact Hs.
    + intros Hin. apply H2. apply zrange_in in Hin. unfold zlen. lia.
    + intros Hin. apply H2 in Hin. apply zrange_in. unfold zlen in Hin. lia.
  - apply t_rebuild_indexed. cbn. apply zrange_NoDup.
  - reflexivity.
  - reflexivity.
  - intros n id Hn. destruct (H1 n id Hn) as (v & v' & ? & ? & ?). exists v, v'.
    split; [assumption|]. split; [assumption|]. now apply zat_Ok.
Qed.

Lemma new_ids_lookup ids n id :
  NoDup ids -> nth_error ids n = Some id -> zlookup id (new_ids ids) = Some (Z.of_nat n).
Proof.
  intros Hnd Hn. destruct (index_from_lookup ids 0 zempty Hnd) as [H _].
  unfold new_ids. rewrite (H n id Hn). f_equal; lia.
Qed.

Lemma new_ids_in ids id : NoDup ids -> In id ids -> exists n, zlookup id (new_ids ids) = Some (Z.of_nat n)
   /\ nth_error ids n = Some id.
Proof.
  intros Hnd Hin. apply In_nth_error in Hin. destruct Hin as [n Hn]. exists n.
  split; [now apply new_ids_lookup|assumption].
Qed.

Theorem renumber_ok (m : mesh) :
  wf_mesh m -> refs_ok m -> face_refs_ok m ->
  exists m', renumber m = Ok m' /\ wf_mesh m' /\
    (t_ids (m_nodes m') = zrange (length (t_ids (m_nodes m))) /\
     t_ids (m_faces m') = zrange (length (t_ids (m_faces m))) /\
     t_ids (m_elems m') = zrange (length (t_ids (m_elems m)))) /\
    (indexed (m_nodes m') /\ indexed (m_faces m') /\ indexed (m_elems m')) /\
    (forall n, (n < length (t_ids (m_nodes m)))%nat -> at_pos (m_nodes m') n = at_pos (m_nodes m) n) /\
    (forall n e, at_pos (m_elems m) n = Ok e ->
       exists e', at_pos (m_elems m') n = Ok e' /\ e_type e' = e_type e /\
         coords m' (e_nodes e') = coords m (e_nodes e) /\
         map (t_id (m_faces m)) (e_faces e') = map Ok (e_faces e)) /\
    (forall n f, at_pos (m_faces m) n = Ok f ->
       exists f', at_pos (m_faces m') n = Ok f' /\ f_type f' = f_type f /\
         f_haspair f' = f_haspair f /\ f_pair f' = f_pair f /\ f_elem f' = f_elem f /\
         coords m' (f_nodes f') = coords m (f_nodes f)).
Proof.
  intros (Hn & Hf & He) (Hre & Hrf) Hff.
  assert (Hndn : NoDup (t_ids (m_nodes m))) by apply Hn.
  assert (Hndf : NoDup (t_ids (m_faces m))) by apply Hf.
  set (nn := new_ids (t_ids (m_nodes m))). set (nf := new_ids (t_ids (m_faces m))).
  assert (Hnn : forall l, Forall (fun k => In k (t_ids (m_nodes m))) l ->
            forall k, In k l -> zlookup k nn <> None).
  { intros l Hl k Hk. rewrite Forall_forall in Hl.
    destruct (new_ids_in _ k Hndn (Hl k Hk)) as (j & Hj & _). unfold nn. congruence. }
  assert (Hnf : forall l, Forall (fun k => In k (t_ids (m_faces m))) l ->
            forall k, In k l -> zlookup k nf <> None).
  { intros l Hl k Hk. rewrite Forall_forall in Hl.
    destruct (new_ids_in _ k Hndf (Hl k Hk)) as (j & Hj & _). unfold nf. congruence. }
  destruct (renumber_table_ok (fun v => Ok v) (m_nodes m) Hn) as (tn & Htn & Wn & In' & Idn & _ & Vn).
  { eauto. }
  destruct (renumber_table_ok (fun v => l <- remap nn (f_nodes v) ;; Ok (set_f_nodes v l)) (m_faces m) Hf)
    as (tf & Htf & Wf & If & Idf & _ & Vf).
  { intros id v Hv. destruct (remap_ok nn (f_nodes v)) as (l & -> & _); [|cbn; eauto].
    eapply Hnn, Hrf; eauto. }
  destruct (renumber_table_ok (fun v => l <- remap nn (e_nodes v) ;; g <- remap nf (e_faces v) ;;
                                Ok (set_e_faces (set_e_nodes v l) g)) (m_elems m) He)
    as (te & Hte & We & Ie & Ide & _ & Ve).
  { intros id v Hv. destruct (remap_ok nn (e_nodes v)) as (l & -> & _); [eapply Hnn, Hre; eauto|].
    destruct (remap_ok nf (e_faces v)) as (g & Hg & _); [eapply Hnf, Hff; eauto|].
    cbn. rewrite Hg. cbn. eauto. }
  exists (Mesh tn tf te).
  split; [unfold renumber; fold nn nf; rewrite Htn; cbn [bind]; rewrite Htf; cbn [bind]; rewrite Hte; reflexivity|].
  split; [repeat apply conj; (apply Wn || apply Wf || apply We)|].
  cbn [m_nodes m_faces m_elems].
  split; [auto|]. split; [auto|].
  assert (Hgn : forall n id, nth_error (t_ids (m_nodes m)) n = Some id ->
            t_get tn (Z.of_nat n) = t_get (m_nodes m) id).
  { intros n id Hnth. destruct (Vn n id Hnth) as (v & v' & Hv & [= <-] & Hv'). congruence. }
  assert (Hco : forall l l', Forall (fun k => In k (t_ids (m_nodes m))) l -> remap nn l = Ok l' ->
            coords (Mesh tn tf te) l' = coords m l).
  { intros l l' Hl Hr. apply (remap_coords m (Mesh tn tf te) nn); [|assumption].
    intros k Hk. rewrite Forall_forall in Hl. destruct (new_ids_in _ k Hndn (Hl k Hk)) as (j & Hj & Hj').
    exists (Z.of_nat j). split; [exact Hj|]. cbn. now apply Hgn. }
  assert (Hpos : forall {A} (t t' : table A) n, t_ids t' = zrange (length (t_ids t)) ->
            (n < length (t_ids t))%nat -> at_pos t' n = t_get t' (Z.of_nat n)).
  { intros A t t' n Hids Hlt. apply at_pos_lookup. rewrite Hids. now apply zrange_nth. }
  split.
  { intros n Hlt. rewrite (Hpos _ (m_nodes m) tn n Idn Hlt).
    destruct (nth_error (t_ids (m_nodes m)) n) as [id|] eqn:E; [|apply nth_error_None in E; lia].
    rewrite (at_pos_lookup _ _ _ E). now apply Hgn. }
  split.
  - intros n e Hp. unfold at_pos, t_id in Hp. rewrite vec_at_nat in Hp.
    destruct (nth_error (t_ids (m_elems m)) n) as [id|] eqn:E; cbn in Hp; [|congruence].
    destruct (Ve n id E) as (v & v' & Hv & Hfv & Hv'). assert (v = e) by congruence. subst v.
    exists v'. rewrite (Hpos _ (m_elems m) te n Ide) by (apply nth_error_Some; congruence).
    split; [assumption|].
    destruct (remap nn (e_nodes e)) as [l| |] eqn:El; cbn in Hfv; try congruence.
    destruct (remap nf (e_faces e)) as [g| |] eqn:Eg; cbn in Hfv; try congruence.
    injection Hfv as <-. cbn. split; [reflexivity|]. split; [apply Hco; [apply (Hre id e Hv)|exact El]|].
    assert (Hall := Hff id e Hv). clear - Hall Eg Hndf. unfold nf, remap in Eg. revert g Eg.
    induction (e_faces e) as [|k ks IH]; intros g; cbn; [now intros [= <-]|].
    inversion Hall as [|? ? Hk Hks]; subst.
    destruct (new_ids_in _ k Hndf Hk) as (j & Hj & Hj'). unfold zat at 1. rewrite Hj. cbn.
    destruct (mapM (zat (new_ids (t_ids (m_faces m)))) ks) as [g'| |]; cbn; try congruence.
    intros [= <-]. cbn. f_equal; [|now apply IH].
    unfold t_id. now rewrite vec_at_nat, Hj'.
  - intros n e Hp. unfold at_pos, t_id in Hp. rewrite vec_at_nat in Hp.
    destruct (nth_error (t_ids (m_faces m)) n) as [id|] eqn:E; cbn in Hp; [|congruence].
    destruct (Vf n id E) as (v & v' & Hv & Hfv & Hv'). assert (v = e) by congruence. subst v.
    exists v'. rewrite (Hpos _ (m_faces m) tf n Idf) by (apply nth_error_Some; congruence).
    split; [assumption|].
    destruct (remap nn (f_nodes e)) as [l| |] eqn:El; cbn in Hfv; try congruence.
    injection Hfv as <-. cbn. repeat (split; [reflexivity|]). apply Hco; [now apply (Hrf id)|assumption].
Qed.

(** ** Packaging for the property file *)

Lemma insertion_ok : forall (A : Type) (ps : list (Z * A)),
  NoDup (map fst ps) ->
  exists t,
    run (map (fun p => Add (fst p) (snd p)) ps) = Ok t /\
    t_size t = zlen ps /\
    (forall n id v, nth_error ps n = Some (id, v) ->
       t_id t (Z.of_nat n) = Ok id /\ t_index t id = Ok (Z.of_nat n) /\ t_get t id = Ok v) /\
    (forall i id, t_id t i = Ok id -> t_index t id = Ok i) /\
    (forall id i, t_index t id = Ok i -> t_id t i = Ok id) /\
    (forall i, i < 0 \/ zlen ps <= i -> t_id t i = Throw) /\
    (forall id, ~ In id (map fst ps) -> t_get t id = Throw /\ t_index t id = Throw).
Proof.
  intros A ps Hnd. destruct (run_adds ps Hnd) as (t & Ht & R). exists t. split; [exact Ht|].
  destruct (repr_adds_facts t ps R) as (Hids & Hn & Habs & Hc).
  split; [unfold t_size, zlen; now rewrite Hids, map_length|].
  split; [exact Hn|].
  assert (H1 : forall i id, t_id t i = Ok id -> t_index t id = Ok i).
  { intros i id Hi. unfold t_id in Hi. apply vec_at_Ok in Hi. destruct Hi as [Hi0 Hi].
    rewrite Hids, nth_error_map in Hi.
    destruct (nth_error ps (Z.to_nat i)) as [[id' v]|] eqn:E; cbn in Hi; [|congruence].
    injection Hi as ->. destruct (Hn _ _ _ E) as (_ & -> & _). f_equal. lia. }
  split; [exact H1|]. split; [|split].
  - intros id i Hi. destruct (in_dec Z.eq_dec id (map fst ps)) as [Hin|Hni].
    + apply in_map_iff in Hin. destruct Hin as ([id' v] & Heq & Hin). cbn in Heq; subst id'.
      destruct (In_nth_error _ _ Hin) as [n Hnn]. destruct (Hn _ _ _ Hnn) as (H2 & H3 & _).
      assert (i = Z.of_nat n) by congruence. now subst.
    + destruct (Habs id Hni). congruence.
  - intros i Hi. unfold t_id, vec_at. destruct (Z.ltb_spec i 0); [reflexivity|].
    destruct (nth_error (t_ids t) (Z.to_nat i)) eqn:E; [|reflexivity].
    assert (Z.to_nat i < length (t_ids t))%nat by (apply nth_error_Some; congruence).
    rewrite Hids, map_length in *. unfold zlen in Hi. lia.
  - exact Habs.
Qed.

Lemma duplicate_id_witness : exists (ops : list (op Z)) t,
  run ops = Ok t /\ t_id t 0 = Ok 4 /\ t_get t 4 = Throw.
Proof. exists [Add 4 1; Add 4 2; Remove 4]. eexists. split; [reflexivity|]. split; reflexivity. Qed.

Lemma removal_ok : forall (A : Type) (ops : list (op A)),
  valid ops ->
  exists t,
    run ops = Ok t /\
    t_size t = zlen (live (ledger ops)) /\
    (forall p e, nth_error (live (ledger ops)) p = Some e ->
       t_id t (Z.of_nat p) = Ok (en_id e) /\ t_get t (en_id e) = Ok (en_val e)) /\
    (forall id, ~ present (ledger ops) id -> t_get t id = Throw /\ t_index t id = Throw) /\
    (forall n p id v,
       nth_error (ledger ops) n = Some (Entry id v true) -> t_id t (Z.of_nat p) = Ok id ->
       t_index t id = Ok (Z.of_nat n) /\ (p <= n)%nat /\
       (p = n <-> forall k e, (k < n)%nat -> nth_error (ledger ops) k = Some e -> en_live e = true)) /\
    (forall id, ~ present (ledger ops) id -> t_remove t id = UB).
Proof.
  intros A ops Hv. destruct (run_repr ops Hv) as (t & Ht & R). exists t. split; [exact Ht|].
  split; [now apply repr_size|]. split; [intros; now apply (repr_get t (ledger ops))|].
  split; [intros; now apply (repr_absent t (ledger ops))|]. split.
  - intros n p id v Hn Hp. split; [eapply repr_index; eauto|]. eapply repr_stale; eauto.
  - intros id Hid. apply remove_absent_UB. rewrite (r_ids _ _ R). exact Hid.
Qed.

Lemma stale_index_witness : exists (ops : list (op bool)) t,
  valid ops /\ run ops = Ok t /\ t_size t = 1 /\ t_id t 0 = Ok 3 /\ t_index t 3 = Ok 1.
Proof.
  exists [Add 7 true; Add 3 false; Remove 7]. eexists.
  split; [cbn; unfold present; cbn; intuition discriminate|].
  split; [reflexivity|]. repeat split.
Qed.

Lemma run_sorted {A} (ops : list (op A)) t : run ops = Ok t -> zsorted (t_map t).
Proof. apply foldM_exec_sorted, zsorted_empty. Qed.

Lemma next_id_ok : forall (A : Type) (ops : list (op A)) t,
  run ops = Ok t ->
  t_get t (t_next t) = Throw /\
  (forall id v, t_get t id = Ok v -> id < t_next t) /\
  ((forall id, t_get t id = Throw) -> t_next t = 0) /\
  (forall v id, id <> t_next t -> t_get (t_add t (t_next t) v) id = t_get t id).
Proof.
  intros A ops t Hr. apply run_sorted in Hr. destruct (t_next_fresh t Hr) as [H1 H2].
  split; [now apply zat_Throw|]. split; [|split].
  - intros id v Hg. apply zat_Ok in Hg. apply H2. congruence.
  - intros Hall. apply t_next_empty. destruct (t_map t) as [|[k v] r] eqn:E; [reflexivity|].
    specialize (Hall k). unfold t_get, zat in Hall. rewrite E in Hall. cbn in Hall.
    rewrite Z.eqb_refl in Hall. discriminate.
  - intros v id Hne. unfold t_get, zat. cbn. rewrite zlookup_insert_ne; [reflexivity|congruence].
Qed.

Lemma run_wf : forall (A : Type) (ops : list (op A)) t, valid ops -> run ops = Ok t -> wf_table t.
Proof.
  intros A ops t Hv Hr. destruct (run_repr ops Hv) as (t' & Ht & R).
  assert (t' = t) by congruence. subst. eapply repr_wf; eauto.
Qed.

Lemma mesh_copy_ok : forall m, wf_mesh m ->
  exists m', mesh_copy m = Ok m' /\ wf_mesh m' /\
    (t_ids (m_nodes m') = t_ids (m_nodes m) /\ (forall id, t_get (m_nodes m') id = t_get (m_nodes m) id)) /\
    (t_ids (m_faces m') = t_ids (m_faces m) /\ (forall id, t_get (m_faces m') id = t_get (m_faces m) id)) /\
    (t_ids (m_elems m') = t_ids (m_elems m) /\ (forall id, t_get (m_elems m') id = t_get (m_elems m) id)) /\
    indexed (m_nodes m') /\ indexed (m_faces m') /\ indexed (m_elems m').
Proof.
  intros m (Hn & Hf & He).
  destruct (t_copy_ok _ Hn) as (tn & E1 & I1 & G1 & X1 & W1 & _).
  destruct (t_copy_ok _ Hf) as (tf & E2 & I2 & G2 & X2 & W2 & _).
  destruct (t_copy_ok _ He) as (te & E3 & I3 & G3 & X3 & W3 & _).
  exists (Mesh tn tf te). unfold mesh_copy. rewrite E1, E2, E3. cbn [bind m_nodes m_faces m_elems].
  split; [reflexivity|]. split; [exact (conj W1 (conj W2 W3))|]. auto 10.
Qed.

(** Two nodes, the first of three having been removed; a face and an element use them. *)
Definition sample_nodes : table coord :=
  Table [5; 9] (zinsert 5 (Coord 0 1 0) (zinsert 9 (Coord 2 1 0) zempty))
        (zinsert 5 1 (zinsert 9 2 zempty)) 3.
Definition sample : mesh :=
  Mesh sample_nodes
       (t_add (t_add t_empty 2 (Face FT_POINT [5] true 4 1)) 4 (Face FT_POINT [9] true 2 6))
       (t_add (t_add t_empty 1 (Element ET_BEAM [5; 9] [2])) 6 (Element ET_BEAM [9; 5] [4])).


Lemma sample_ok : wf_mesh sample /\ refs_ok sample /\ face_refs_ok sample /\ ~ indexed (m_nodes sample).
Proof.
  assert (W : forall A (ops : list (op A)) t, valid ops -> run ops = Ok t -> wf_table t) by exact run_wf.
  split; [|split; [|split]].
  - split; [|split].
    + apply (W _ [Add 1 (Coord 0 0 0); Add 5 (Coord 0 1 0); Add 9 (Coord 2 1 0); Remove 1]);
        [cbn; unfold present; cbn; intuition discriminate|reflexivity].
    + apply (W _ [Add 2 (Face FT_POINT [5] true 4 1); Add 4 (Face FT_POINT [9] true 2 6)]);
        [cbn; unfold present; cbn; intuition discriminate|reflexivity].
    + apply (W _ [Add 1 (Element ET_BEAM [5; 9] [2]); Add 6 (Element ET_BEAM [9; 5] [4])]);
        [cbn; unfold present; cbn; intuition discriminate|reflexivity].
  - split; intros id v Hg; unfold t_get, zat in Hg; cbn in Hg;
      repeat (destruct (_ =? _) in Hg; [injection Hg as <-; repeat constructor; cbn; tauto|]);
      discriminate.
  - intros id v Hg; unfold t_get, zat in Hg; cbn in Hg;
      repeat (destruct (_ =? _) in Hg; [injection Hg as <-; repeat constructor; cbn; tauto|]);
      discriminate.
  - intros [H _]. specialize (H 0 5 eq_refl). discriminate.
Qed.

Lemma addMesh_face_links : exists a b c n e e' f f',
  wf_mesh a /\ wf_mesh b /\ refs_ok b /\ face_refs_ok b /\ addMesh a b = Ok c /\
  at_pos (m_elems b) n = Ok e /\ at_pos (m_elems c) (length (t_ids (m_elems a)) + n) = Ok e' /\
  map (t_get (m_faces b)) (e_faces e) = [Ok f] /\ map (t_get (m_faces c)) (e_faces e') = [Ok f'] /\
  coords c (f_nodes f') <> coords b (f_nodes f).
Proof.
  pose (a := Mesh (t_add t_empty 5 (Coord 7 7 7)) (t_add t_empty 2 (Face FT_POINT [5] false 0 0)) t_empty).
  exists a, sample. do 6 eexists.
  split; [|split; [apply sample_ok|split; [apply sample_ok|split; [apply sample_ok|]]]].
  - split; [|split].
    + apply (run_wf _ [Add 5 (Coord 7 7 7)]); [cbn; unfold present; cbn; tauto|reflexivity].
    + apply (run_wf _ [Add 2 (Face FT_POINT [5] false 0 0)]); [cbn; unfold present; cbn; tauto|reflexivity].
    + apply (run_wf _ []); [exact I|reflexivity].
  - split; [reflexivity|]. split; [apply (eq_refl (at_pos (m_elems sample) 0))|].
    split; [reflexivity|]. split; [reflexivity|]. split; [reflexivity|]. discriminate.
Qed.

Lemma renumber_pair_links : exists m m' f f' g,
  wf_mesh m /\ refs_ok m /\ face_refs_ok m /\ renumber m = Ok m' /\
  at_pos (m_faces m) 0 = Ok f /\ f_haspair f = true /\ t_get (m_faces m) (f_pair f) = Ok g /\
  at_pos (m_faces m') 0 = Ok f' /\ f_haspair f' = true /\ t_get (m_faces m') (f_pair f') = Throw.
Proof.
  exists sample. do 4 eexists. do 3 (split; [apply sample_ok|]).
  split; [reflexivity|]. split; [reflexivity|]. split; [reflexivity|]. split; [reflexivity|].
  split; [reflexivity|]. split; reflexivity.
Qed.

Lemma add_after_renumber : exists m m',
  wf_mesh m /\ refs_ok m /\ face_refs_ok m /\ renumber m = Ok m' /\
  exists v, ~ indexed (t_add (m_nodes m') (t_next (m_nodes m')) v).
Proof.
  exists sample. eexists. do 3 (split; [apply sample_ok|]). split; [reflexivity|].
  exists (Coord 0 0 0). intros [H _]. specialize (H 2 2 eq_refl). discriminate.
Qed.

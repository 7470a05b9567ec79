(** The last steps of generate: unused nodes removed, everything renumbered, faces generated; and areas. *)
From Coq Require Import ZArith List Bool QArith Lia Lqa.
From Verif Require Import Prelude Vec ZMap Mesh_Model HashGrid_Model Face_Model Merge_Model Mesh_Spec Mesh_Proofs Merge_Spec Merge_Proofs
  Face_Spec Face_Proofs Front_Model Front_Spec Front_Proofs.
Import ListNotations.
Open Scope Z_scope.

Definition move (f : Z -> Z) (d : Z * Z) : Z * Z := (f (fst d), f (snd d)).

Lemma running_move f ids l p q : (forall x y, In x ids -> In y ids -> f x = f y -> x = y) ->
  (forall d, In d l -> In (fst d) ids /\ In (snd d) ids) -> In p ids -> In q ids ->
  running (map (move f) l) (f p) (f q) = running l p q.
Proof.
  intros Hinj Hl Hp Hq. unfold running. induction l as [|d l IH]; [reflexivity|]. cbn [map filter].
  destruct (Hl d (or_introl eq_refl)) as [H1 H2].
  assert (E : ((fst (move f d) =? f p) && (snd (move f d) =? f q))%bool = ((fst d =? p) && (snd d =? q))%bool).
  { cbn [move fst snd]. f_equal.
    - destruct (Z.eqb_spec (fst d) p) as [->|]; [apply Z.eqb_refl|]. apply Z.eqb_neq. intros E. apply n. now apply Hinj.
    - destruct (Z.eqb_spec (snd d) q) as [->|]; [apply Z.eqb_refl|]. apply Z.eqb_neq. intros E. apply n. now apply Hinj. }
  specialize (IH (fun x H => Hl x (or_intror H))). rewrite E.
  destruct ((fst d =? p) && (snd d =? q))%bool; [|exact IH]. cbn [length]. now f_equal.
Qed.

Lemma sides_move f l : sides_of (map f l) = map (move f) (sides_of l).
Proof. destruct l as [|p [|q [|r [|]]]]; reflexivity. Qed.

Lemma sides_in l d : In d (sides_of l) -> In (fst d) l /\ In (snd d) l.
Proof. destruct l as [|p [|q [|r [|]]]]; cbn; try contradiction. intros [<-|[<-|[<-|[]]]]; cbn; auto. Qed.

Lemma all_sides_in t d : In d (all_sides t) -> exists id e, t_get t id = Ok e /\ In (fst d) (e_nodes e) /\ In (snd d) (e_nodes e).
Proof.
  unfold all_sides. intros H. apply in_flat_map in H. destruct H as (id & _ & H). unfold element_sides in H.
  destruct (t_get t id) as [e| |] eqn:E; try contradiction. exists id, e. split; [assumption|]. now apply sides_in.
Qed.

Lemma running_pos l a b : (0 < running l a b)%nat -> In (a, b) l.
Proof.
  unfold running. induction l as [|[x y] l IH]; cbn; [lia|].
  destruct (Z.eqb_spec x a), (Z.eqb_spec y b); cbn; subst; auto.
Qed.

Lemma flat_map_zrange {B} (f : Z -> list B) (g : Z -> list B) l : (forall k id, nth_error l k = Some id -> f (Z.of_nat k) = g id) ->
  flat_map f (zrange (length l)) = flat_map g l.
Proof.
  revert f. induction l as [|x l IH] using rev_ind; intros f H; [reflexivity|].
  rewrite app_length, Nat.add_1_r, zrange_S, !flat_map_app. f_equal.
  - apply IH. intros k id Hk. apply H. rewrite nth_error_app1; [exact Hk|]. apply nth_error_Some. congruence.
  - cbn [flat_map]. f_equal. apply H. rewrite nth_error_app2 by lia. now rewrite Nat.sub_diag.
Qed.

Lemma map_flat_map {A B C} (f : B -> C) (g : A -> list B) l : map f (flat_map g l) = flat_map (fun x => map f (g x)) l.
Proof. induction l; cbn; [reflexivity|]. now rewrite map_app, IHl. Qed.

Definition sound_triangle (tol : Q) (t : table coord) (e : element) : Prop :=
  exists p q r cp cq cr, e_type e = ET_TRIANGLE /\ e_nodes e = [p; q; r] /\
    t_get t p = Ok cp /\ t_get t q = Ok cq /\ t_get t r = Ok cr /\ upright tol cp cq cr = true.

Lemma finish_ok em tol n s m1 m2 m3 : inv em tol s -> (forall e, In e (ms_front s) -> fe_off e = true) ->
  removeDanglingNodes (Mesh (ms_nodes s) t_empty (ms_elems s)) = Ok m1 -> renumber m1 = Ok m2 -> generateFaces n tol m2 = Ok m3 ->
  wf_table (m_nodes (fst m3)) /\ (exists origin, bounded_by em (fst m3) origin) /\
  (forall id e, t_get (m_elems (fst m3)) id = Ok e -> sound_triangle tol (m_nodes (fst m3)) e) /\
  (forall p, In p (t_ids (m_nodes (fst m3))) -> exists id e, t_get (m_elems (fst m3)) id = Ok e /\ In p (e_nodes e)).
Proof.
  intros I Hoff E1 E2 E3.
  set (m0 := Mesh (ms_nodes s) t_empty (ms_elems s)) in *.
  assert (W0 : wf_mesh m0).
  { split; [apply I|]. split; [|apply I]. split; [constructor|]. split; [apply zsorted_empty|]. intros id. cbn. tauto. }
  destruct (removeDangling_ok m0 W0) as (m1' & E1' & F1 & L1 & W1 & K1 & _).
  assert (m1' = m1) by congruence. subst m1'. cbn in F1, L1.
  assert (Wm1 : wf_mesh m1) by (split; [assumption|split; [rewrite F1|rewrite L1]; apply W0]).
  (* nodes of elements are kept *)
  assert (Hkeep : forall id e k, t_get (ms_elems s) id = Ok e -> In k (e_nodes e) ->
    In k (t_ids (m_nodes m1)) /\ t_get (m_nodes m1) k = t_get (ms_nodes s) k).
  { intros id e k He Hk. destruct K1 as (keep & Hids & Hv).
    destruct (i_tri _ _ _ I id e He) as (p & q & r & cp & cq & cr & -> & Hp & Hq & Hr & _).
    assert (Hin : In k (t_ids (ms_nodes s))).
    { cbn in Hk. pose proof (i_nodes _ _ _ I) as Wn0.
      destruct Hk as [<-|[<-|[<-|[]]]]; [exact (wf_get_in _ _ _ Wn0 Hp)|exact (wf_get_in _ _ _ Wn0 Hq)|exact (wf_get_in _ _ _ Wn0 Hr)]. }
    destruct (Hv k Hin) as (v & Hg & [(_ & Hkp & Hg')|(Hnu & _)]).
    - split; [|cbn in Hg; congruence]. rewrite Hids. apply filter_In. auto.
    - exfalso. apply Hnu. left. exists id. eexists. split; [exact He|assumption]. }
  assert (Hback : forall k, In k (t_ids (m_nodes m1)) -> t_get (m_nodes m1) k = t_get (ms_nodes s) k /\
     exists id e, t_get (ms_elems s) id = Ok e /\ In k (e_nodes e)).
  { intros k Hk. destruct K1 as (keep & Hids & Hv). rewrite Hids in Hk. apply filter_In in Hk. destruct Hk as [Hk Hkp].
    destruct (Hv k Hk) as (v & Hg & [(Hu & _ & Hg')|(_ & Hf & _)]); [|congruence].
    split; [cbn in Hg; congruence|]. destruct Hu as [Hu|(id & f & Hf & _)]; [exact Hu|discriminate]. }
  set (ids := t_ids (m_nodes m1)) in *.
  assert (Hnd : NoDup ids) by apply W1.
  set (nn := new_ids ids).
  (* renumber *)
  unfold renumber in E2. fold ids nn in E2.
  destruct (renumber_table_ok (fun v => Ok v) (m_nodes m1) W1) as (tn & Htn & Wtn & _ & Itn & _ & Vn); [eauto|].
  rewrite Htn in E2. cbn [bind] in E2.
  destruct (renumber_table _ (m_faces m1)) as [tf| |] eqn:Htf; cbn [bind] in E2; try discriminate.
  assert (Wtf : wf_table tf).
  { destruct (renumber_table_ok (fun v => l <- remap nn (f_nodes v) ;; Ok (set_f_nodes v l)) (m_faces m1)) as (tf' & Htf' & Wf & _).
    - apply Wm1.
    - intros id v Hv. rewrite F1 in Hv. discriminate.
    - rewrite Htf' in Htf. injection Htf as <-. exact Wf. }
  set (fe := fun v : element => l <- remap nn (e_nodes v) ;; g <- remap (new_ids (t_ids (m_faces m1))) (e_faces v) ;;
                                Ok (set_e_faces (set_e_nodes v l) g)) in *.
  destruct (renumber_table_ok fe (m_elems m1)) as (te & Hte & Wte & _ & Ite & _ & Ve).
  { apply Wm1. }
  { intros id v Hv. rewrite L1 in Hv. unfold fe. destruct (remap_ok nn (e_nodes v)) as (l & -> & _).
    - intros k Hk. destruct (Hkeep _ _ _ Hv Hk) as [Hin _]. destruct (new_ids_in ids k Hnd Hin) as (j & Hj & _). unfold nn. congruence.
    - destruct (i_tri _ _ _ I _ _ Hv) as (p & q & r & cp & cq & cr & -> & _). cbn. eauto. }
  rewrite Hte in E2. cbn [bind] in E2. injection E2 as <-.
  set (origin := fun p => nth (Z.to_nat p) ids 0).
  assert (Horig : forall j k, nth_error ids j = Some k -> origin (Z.of_nat j) = k).
  { intros j k Hj. unfold origin. rewrite Nat2Z.id. now apply nth_error_nth. }
  assert (Hpos : forall p, In p (t_ids tn) -> exists j k, p = Z.of_nat j /\ nth_error ids j = Some k).
  { intros p Hp. rewrite Itn in Hp. apply zrange_in in Hp. fold ids in Hp. exists (Z.to_nat p).
    destruct (nth_error ids (Z.to_nat p)) as [k|] eqn:E; [|apply nth_error_None in E; lia]. exists k. split; [lia|reflexivity]. }
  assert (Hinj : forall p q, In p (t_ids tn) -> In q (t_ids tn) -> origin p = origin q -> p = q).
  { intros p q Hp Hq. destruct (Hpos p Hp) as (j & k & -> & Hj). destruct (Hpos q Hq) as (j' & k' & -> & Hj').
    rewrite (Horig _ _ Hj), (Horig _ _ Hj'). intros <-. f_equal. eapply NoDup_nth_error_inj; eauto. }
  assert (Hget : forall p, In p (t_ids tn) -> t_get tn p = t_get (ms_nodes s) (origin p) /\ In (origin p) ids).
  { intros p Hp. destruct (Hpos p Hp) as (j & k & -> & Hj). rewrite (Horig _ _ Hj).
    destruct (Vn j k Hj) as (v & v' & Hv & [= <-] & Hv'). assert (Hin : In k ids) by (eapply nth_error_In; eauto).
    split; [|exact Hin]. destruct (Hback k Hin) as [Hb _]. congruence. }
  (* an element of the renumbered mesh *)
  assert (Helem : forall j id, nth_error (t_ids (ms_elems s)) j = Some id -> exists e e', t_get (ms_elems s) id = Ok e /\
    t_get te (Z.of_nat j) = Ok e' /\ e_type e' = e_type e /\ map origin (e_nodes e') = e_nodes e /\
    (forall p, In p (e_nodes e') -> In p (t_ids tn))).
  { intros j id Hj. destruct (Ve j id) as (e & e' & He & Hfe & He'); [now rewrite L1|]. rewrite L1 in He. exists e, e'.
    split; [assumption|]. split; [assumption|]. unfold fe in Hfe.
    destruct (i_tri _ _ _ I _ _ He) as (p & q & r & cp & cq & cr & -> & _). cbn [e_nodes e_faces e_type] in *.
    destruct (Hkeep _ _ p He) as [Hp _]; [cbn; auto|]. destruct (Hkeep _ _ q He) as [Hq _]; [cbn; auto|].
    destruct (Hkeep _ _ r He) as [Hr _]; [cbn; auto|].
    destruct (new_ids_in ids p Hnd Hp) as (jp & Zp & Np). destruct (new_ids_in ids q Hnd Hq) as (jq & Zq & Nq).
    destruct (new_ids_in ids r Hnd Hr) as (jr & Zr & Nr).
    unfold remap in Hfe. cbn [mapM] in Hfe. unfold zat, nn in Hfe. rewrite Zp, Zq, Zr in Hfe. cbn in Hfe. injection Hfe as <-. cbn.
    split; [reflexivity|]. split; [now rewrite (Horig _ _ Np), (Horig _ _ Nq), (Horig _ _ Nr)|].
    assert (Hr' : forall j k, nth_error ids j = Some k -> In (Z.of_nat j) (t_ids tn)).
    { intros j0 k Hjk. rewrite Itn. apply zrange_in. fold ids. assert ((j0 < length ids)%nat) by (apply nth_error_Some; congruence). lia. }
    intros x [<-|[<-|[<-|[]]]]; eauto. }
  assert (Ite' : t_ids te = zrange (length (t_ids (ms_elems s)))) by now rewrite Ite, L1.
  (* generateFaces *)
  assert (Hen : enough (Mesh tn tf te)).
  { intros id e He. cbn in He. pose proof (wf_get_in te id e Wte He) as Hin. rewrite Ite' in Hin. apply zrange_in in Hin.
    destruct (nth_error (t_ids (ms_elems s)) (Z.to_nat id)) as [id0|] eqn:Hj; [|apply nth_error_None in Hj; lia].
    destruct (Helem _ _ Hj) as (e0 & e' & He0 & He' & Ht & Hm & _). rewrite Z2Nat.id in He' by lia. assert (e' = e) by congruence. subst e'.
    destruct (i_tri _ _ _ I _ _ He0) as (p & q & r & cp & cq & cr & -> & _). rewrite Ht. cbn in *.
    apply (f_equal (@length Z)) in Hm. rewrite map_length in Hm. cbn in Hm. lia. }
  destruct (generate_ok (Mesh tn tf te)) as (t & el & F & Hg & G); [split; [exact Wtn|split; [exact Wtf|exact Wte]]|exact Hen|].
  unfold generateFaces in E3. rewrite Hg in E3. cbn [bind fst snd] in E3.
  destruct (with_ids _ _) as [objs| |]; cbn [bind] in E3; try discriminate.
  destruct (grid_of n objs) as [g| |]; cbn [bind] in E3; try discriminate.
  destruct (foldM _ objs t) as [t'| |]; cbn [bind] in E3; try discriminate. injection E3 as <-. cbn [fst m_nodes m_elems].
  cbn [m_elems] in G.
  assert (Hel : forall id, match t_get te id with
     | Ok e => exists fs, t_get el id = Ok (set_e_faces e fs) | Throw => t_get el id = Throw | UB => False end).
  { intros id. destruct (t_get te id) as [e| |] eqn:He.
    - pose proof (wf_get_in te id e Wte He) as Hin. destruct (gn_done _ _ _ _ _ G id e Hin He) as (start & Hs & _). eauto.
    - rewrite (gn_rest _ _ _ _ _ G); [exact He|]. intros Hin. destruct (wf_get te id Wte Hin). congruence.
    - unfold t_get, zat in He. destruct (zlookup id (t_map te)); discriminate. }
  assert (Hsides : all_sides el = all_sides te).
  { unfold all_sides. rewrite (gn_ids _ _ _ _ _ G). apply flat_map_same. intros id _. unfold element_sides. specialize (Hel id).
    destruct (t_get te id) as [e| |] eqn:He; [destruct Hel as [fs ->]; reflexivity|now rewrite Hel|contradiction]. }
  assert (Hmove : map (move origin) (all_sides te) = all_sides (ms_elems s)).
  { unfold all_sides. rewrite Ite', map_flat_map. apply flat_map_zrange. intros k id Hk.
    destruct (Helem _ _ Hk) as (e & e' & He & He' & _ & Hm & _). unfold element_sides. rewrite He, He', <- sides_move. now rewrite Hm. }
  assert (Hside_in : forall d, In d (all_sides te) -> In (fst d) (t_ids tn) /\ In (snd d) (t_ids tn)).
  { intros d Hd. destruct (all_sides_in _ _ Hd) as (id & e & He & H1 & H2).
    pose proof (wf_get_in te id e Wte He) as Hin. rewrite Ite' in Hin. apply zrange_in in Hin.
    destruct (nth_error (t_ids (ms_elems s)) (Z.to_nat id)) as [id0|] eqn:Hj; [|apply nth_error_None in Hj; lia].
    destruct (Helem _ _ Hj) as (e0 & e' & He0 & He' & _ & _ & Hp). rewrite Z2Nat.id in He' by lia. assert (e' = e) by congruence. subst e'.
    auto. }
  assert (Hpar : forall a b, a <> b -> Nat.odd (joining (all_sides (ms_elems s)) a b) = Nat.odd (joining (beams em) a b)).
  { intros a b Hab. rewrite !odd_joining by assumption. pose proof (i_par _ _ _ I a b Hab) as P. rewrite (W_off _ a b Hoff), xorb_false_l in P.
    now apply xorb_eq in P. }
  split; [exact Wtn|]. split; [|split].
  - exists origin. split; [exact Hinj|]. split; [|split].
    + cbn [m_nodes]. intros p c c' Hp Hc'. destruct (Hget p (wf_get_in _ _ _ Wtn Hp)) as [Hg' _].
      pose proof (i_keep _ _ _ I _ _ Hc'). congruence.
    + cbn [m_nodes m_elems]. intros p q Hp Hq Hpq.
      assert (Hj : joining (all_sides el) p q = joining (all_sides (ms_elems s)) (origin p) (origin q)).
      { unfold joining. rewrite Hsides, <- Hmove. now rewrite !(running_move origin (t_ids tn)). }
      rewrite Hj, <- Nat.negb_odd, Nat.odd_add, Hpar, xorb_nilpotent; [reflexivity|].
      intros Ho. apply Hpq. now apply Hinj.
    + cbn [m_nodes]. intros a b Hab Ho. rewrite <- Hpar in Ho by assumption.
      assert (Hex : exists d, In d (all_sides (ms_elems s)) /\ ((fst d = a /\ snd d = b) \/ (fst d = b /\ snd d = a))).
      { unfold joining in Ho. destruct (running (all_sides (ms_elems s)) a b) eqn:R1.
        - destruct (running (all_sides (ms_elems s)) b a) eqn:R2; [discriminate|].
          exists (b, a). split; [apply running_pos; lia|cbn; auto].
        - exists (a, b). split; [apply running_pos; lia|cbn; auto]. }
      destruct Hex as (d & Hd & Hab'). rewrite <- Hmove in Hd. apply in_map_iff in Hd. destruct Hd as (d' & <- & Hd').
      destruct (Hside_in d' Hd') as [H1 H2]. cbn in Hab'. destruct Hab' as [[]|[]]; [exists (fst d'), (snd d')|exists (snd d'), (fst d')]; auto.
  - intros id e He. specialize (Hel id). destruct (t_get te id) as [e1| |] eqn:He1; [|congruence|contradiction].
    destruct Hel as [fs Hfs]. assert (e = set_e_faces e1 fs) by congruence. subst e.
    pose proof (wf_get_in te id e1 Wte He1) as Hin. rewrite Ite' in Hin. apply zrange_in in Hin.
    destruct (nth_error (t_ids (ms_elems s)) (Z.to_nat id)) as [id0|] eqn:Hj; [|apply nth_error_None in Hj; lia].
    destruct (Helem _ _ Hj) as (e0 & e' & He0 & He' & Ht & Hm & Hp). rewrite Z2Nat.id in He' by lia. assert (e' = e1) by congruence. subst e'.
    destruct (i_tri _ _ _ I _ _ He0) as (p & q & r & cp & cq & cr & -> & Gp & Gq & Gr & U). cbn [e_nodes e_type] in *.
    destruct e1 as [ty nds fs1]. cbn [e_nodes e_type set_e_faces] in *.
    destruct nds as [|p' [|q' [|r' [|]]]]; cbn in Hm; try discriminate. injection Hm as Hp' Hq' Hr'.
    exists p', q', r', cp, cq, cr. cbn. split; [exact Ht|]. split; [reflexivity|].
    destruct (Hget p') as [-> _]; [apply Hp; cbn; auto|]. destruct (Hget q') as [-> _]; [apply Hp; cbn; auto|].
    destruct (Hget r') as [-> _]; [apply Hp; cbn; auto|]. rewrite Hp', Hq', Hr'. auto.
  - intros p Hp. destruct (Hget p Hp) as [_ Hin]. destruct (Hback _ Hin) as (_ & id0 & e0 & He0 & Hk).
    pose proof (wf_get_in _ _ _ (i_elems _ _ _ I) He0) as Hin0. apply In_nth_error in Hin0. destruct Hin0 as [j Hj].
    destruct (Helem _ _ Hj) as (e1 & e' & He1 & He' & _ & Hm & Hp'). assert (e1 = e0) by congruence. subst e1.
    rewrite <- Hm in Hk. apply in_map_iff in Hk. destruct Hk as (p' & Ho & Hk). assert (p' = p) by (apply Hinj; auto). subst p'.
    specialize (Hel (Z.of_nat j)). rewrite He' in Hel. destruct Hel as [fs Hfs]. eexists; eexists. split; [exact Hfs|]. exact Hk.
Qed.

(** ** Areas *)
Definition swap2 (d : Z * Z) : Z * Z := (snd d, fst d).

Lemma running_app l k a b : running (l ++ k) a b = (running l a b + running k a b)%nat.
Proof. unfold running. now rewrite filter_app, app_length. Qed.
Lemma running_swap l a b : running (map swap2 l) a b = running l b a.
Proof.
  unfold running. induction l as [|d l IH]; [reflexivity|]. cbn [map filter swap2 fst snd]. rewrite (andb_comm (snd d =? a)).
  destruct ((fst d =? b) && (snd d =? a))%bool; cbn [length]; now rewrite IH.
Qed.
Lemma running_cons x y l a b : running ((x, y) :: l) a b = ((if ((x =? a)%Z && (y =? b)%Z)%bool then 1 else 0) + running l a b)%nat.
Proof. unfold running. cbn [filter fst snd]. now destruct ((x =? a) && (y =? b))%bool. Qed.

Lemma sum_app l k : (sum (l ++ k) == sum l + sum k)%Q.
Proof.
  induction l as [|x l IH]; [symmetry; apply Qplus_0_l|]. change (x + sum (l ++ k) == x + sum l + sum k)%Q. rewrite IH. apply Qplus_assoc.
Qed.

(** Segments that run as often one way as the other contribute nothing. *)
Lemma cancel (v : Z -> Z -> Q) : (forall a b, v a b == - v b a)%Q -> forall n l, (length l <= n)%nat ->
  (forall a b, a <> b -> running l a b = running l b a) -> (sum (map (fun d => v (fst d) (snd d)) l) == 0)%Q.
Proof.
  intros Hv. assert (H0 : forall a, (v a a == 0)%Q) by (intros a; specialize (Hv a a); lra).
  induction n as [|n IH]; intros l Hl Hb; [destruct l; [reflexivity|cbn in Hl; lia]|].
  destruct l as [|[x y] l]; [reflexivity|]. cbn [map sum fold_right fst snd]. fold (sum (map (fun d => v (fst d) (snd d)) l)).
  destruct (Z.eq_dec x y) as [->|Hxy].
  - rewrite H0, IH; [reflexivity|cbn in Hl; lia|]. intros a b Hab. specialize (Hb a b Hab). rewrite !running_cons in Hb.
    destruct (Z.eqb_spec y a), (Z.eqb_spec y b); cbn in Hb; congruence || lia.
  - assert (Hin : In (y, x) l).
    { apply running_pos. specialize (Hb x y Hxy). rewrite !running_cons, !Z.eqb_refl in Hb. cbn in Hb.
      destruct (Z.eqb_spec x y); [contradiction|]. cbn in Hb. lia. }
    apply in_split in Hin. destruct Hin as (l1 & l2 & ->). rewrite map_app, sum_app. cbn [map sum fold_right fst snd].
    fold (sum (map (fun d => v (fst d) (snd d)) l2)).
    assert (E : (sum (map (fun d => v (fst d) (snd d)) (l1 ++ l2)) == 0)%Q).
    { apply IH; [rewrite app_length in *; cbn in Hl; rewrite app_length in Hl; cbn in Hl; lia|].
      intros a b Hab. specialize (Hb a b Hab). rewrite !running_cons, !running_app, !running_cons in Hb. rewrite !running_app.
      destruct (Z.eqb_spec x a), (Z.eqb_spec y b), (Z.eqb_spec x b), (Z.eqb_spec y a); cbn in Hb; try congruence; lia. }
    rewrite map_app, sum_app in E. pose proof (Hv x y). lra.
Qed.

Definition shoe (c d : coord) : Q := (cx c * cy d - cx d * cy c)%Q.

Lemma total_area_sides m : (total_area2 m ==
  sum (map (fun d => shoe (where_ (m_nodes m) (fst d)) (where_ (m_nodes m) (snd d))) (all_sides (m_elems m))))%Q.
Proof.
  unfold total_area2, all_sides. induction (t_ids (m_elems m)) as [|id ids IH]; [reflexivity|].
  cbn [map sum fold_right flat_map]. rewrite map_app, sum_app. fold (sum (map (fun id => match t_get (m_elems m) id with
                      | Ok (Element _ [p; q; r] _) => area2 (where_ (m_nodes m) p) (where_ (m_nodes m) q) (where_ (m_nodes m) r)
                      | _ => 0%Q end) ids)). rewrite IH.
  apply Qplus_comp; [|reflexivity]. unfold element_sides. destruct (t_get (m_elems m) id) as [[ty nds fs]| |]; [|reflexivity|reflexivity].
  cbn [e_nodes]. destruct nds as [|p [|q [|r [|]]]]; try reflexivity. cbn [sides_of map sum fold_right fst snd].
  unfold area2, shoe. ring.
Qed.

Lemma area_ok em m origin : bounded_by em m origin -> (forall d, In d (beams em) -> placed (m_nodes em) (fst d) /\ placed (m_nodes em) (snd d)) ->
  (forall d, In d (all_sides (m_elems m)) -> In (fst d) (t_ids (m_nodes m)) /\ In (snd d) (t_ids (m_nodes m))) ->
  wf_table (m_nodes m) ->
  (forall a b, a <> b -> (running (named origin (all_sides (m_elems m))) a b + running (beams em) b a <= 1)%nat) ->
  (total_area2 m == enclosed_area2 em)%Q.
Proof.
  intros (Hinj & Hsame & Hpar & Hex) Hbeam Hside Wm Hone.
  set (pos := fun a => match find (fun p => origin p =? a) (t_ids (m_nodes m)) with
                       | Some p => where_ (m_nodes m) p | None => where_ (m_nodes em) a end).
  assert (Hpos : forall p, In p (t_ids (m_nodes m)) -> pos (origin p) = where_ (m_nodes m) p).
  { intros p Hp. unfold pos. destruct (find _ _) as [p'|] eqn:E.
    - apply find_some in E. destruct E as [Hin E]. apply Z.eqb_eq in E. now rewrite (Hinj p' p Hin Hp E).
    - exfalso. pose proof (find_none _ _ E p Hp) as Hn. cbn in Hn. now rewrite Z.eqb_refl in Hn. }
  assert (Hpos' : forall a, placed (m_nodes em) a -> pos a = where_ (m_nodes em) a).
  { intros a [c Hc]. unfold pos. destruct (find _ _) as [p|] eqn:E; [|reflexivity].
    apply find_some in E. destruct E as [Hin E]. apply Z.eqb_eq in E. destruct (wf_get _ _ Wm Hin) as [c' Hc'].
    unfold where_. rewrite Hc, Hc'. symmetry. apply (Hsame p c' c Hc'). now rewrite E. }
  set (v := fun a b => shoe (pos a) (pos b)).
  set (D := named origin (all_sides (m_elems m)) ++ map swap2 (beams em)).
  assert (Hnj : forall a b, a <> b -> Nat.odd (joining (named origin (all_sides (m_elems m))) a b) = Nat.odd (joining (beams em) a b)).
  { intros a b Hab.
    assert (Him : forall x y, (0 < running (named origin (all_sides (m_elems m))) x y)%nat ->
      exists p q, In p (t_ids (m_nodes m)) /\ In q (t_ids (m_nodes m)) /\ origin p = x /\ origin q = y).
    { intros x y Hr. apply running_pos in Hr. unfold named in Hr. apply in_map_iff in Hr. destruct Hr as (d & E & Hd).
      injection E as E1 E2. destruct (Hside d Hd). exists (fst d), (snd d). auto. }
    assert (Hcase : (exists p q, In p (t_ids (m_nodes m)) /\ In q (t_ids (m_nodes m)) /\ origin p = a /\ origin q = b) \/
      (Nat.odd (joining (named origin (all_sides (m_elems m))) a b) = false /\ Nat.odd (joining (beams em) a b) = false)).
    { destruct (Nat.odd (joining (beams em) a b)) eqn:Ob; [left; now apply Hex|].
      destruct (running (named origin (all_sides (m_elems m))) a b) eqn:R1.
      - destruct (running (named origin (all_sides (m_elems m))) b a) eqn:R2.
        + right. unfold joining. now rewrite R1, R2.
        + left. destruct (Him b a) as (p & q & Hp & Hq & E1 & E2); [lia|]. exists q, p. auto.
      - left. apply Him. lia. }
    destruct Hcase as [(p & q & Hp & Hq & <- & <-)|[-> ->]]; [|reflexivity].
    assert (Hpq : p <> q) by (intros ->; now apply Hab).
    specialize (Hpar p q Hp Hq Hpq).
    assert (Hj : joining (named origin (all_sides (m_elems m))) (origin p) (origin q) = joining (all_sides (m_elems m)) p q).
    { unfold joining. change (named origin (all_sides (m_elems m))) with (map (move origin) (all_sides (m_elems m))).
      now rewrite !(running_move origin (t_ids (m_nodes m))). }
    rewrite Hj. rewrite <- Nat.negb_odd, Nat.odd_add in Hpar. apply negb_true_iff, xorb_eq in Hpar. exact Hpar. }
  assert (HD : (sum (map (fun d => v (fst d) (snd d)) D) == 0)%Q).
  { apply (cancel v) with (n := length D); [intros a b; unfold v, shoe; ring|lia|]. intros a b Hab. unfold D.
    rewrite !running_app, !running_swap. pose proof (Hone a b Hab) as H1. assert (b <> a) as Hba by auto. pose proof (Hone b a Hba) as H2.
    specialize (Hnj a b Hab). unfold joining in Hnj. rewrite !Nat.odd_add in Hnj.
    destruct (running (named origin (all_sides (m_elems m))) a b) as [|[|]], (running (beams em) b a) as [|[|]],
      (running (named origin (all_sides (m_elems m))) b a) as [|[|]], (running (beams em) a b) as [|[|]]; cbn in Hnj; try lia; discriminate. }
  unfold D in HD. rewrite map_app, sum_app in HD.
  assert (E1 : sum (map (fun d => v (fst d) (snd d)) (named origin (all_sides (m_elems m)))) =
    sum (map (fun d => shoe (where_ (m_nodes m) (fst d)) (where_ (m_nodes m) (snd d))) (all_sides (m_elems m)))).
  { unfold named. rewrite map_map. f_equal. apply map_ext_in. intros d Hd. destruct (Hside d Hd). cbn. unfold v. now rewrite !Hpos. }
  assert (E2 : (sum (map (fun d => v (fst d) (snd d)) (map swap2 (beams em))) == - enclosed_area2 em)%Q).
  { unfold enclosed_area2. clear - Hbeam Hpos'. induction (beams em) as [|d l IH]; [reflexivity|].
    cbn [map sum fold_right]. fold (sum (map (fun d => v (fst d) (snd d)) (map swap2 l))).
    fold (sum (map (fun d => area2 vzero (where_ (m_nodes em) (fst d)) (where_ (m_nodes em) (snd d))) l)).
    rewrite IH by (intros; apply Hbeam; now right). destruct (Hbeam d (or_introl eq_refl)) as [H1 H2].
    cbn [swap2 fst snd]. unfold v. rewrite (Hpos' _ H1), (Hpos' _ H2). unfold shoe, area2. cbn [cx cy vzero]. ring. }
  rewrite total_area_sides, <- E1. rewrite E2 in HD. lra.
Qed.

Lemma prepare_beams old em points s : prepare old em points = Ok s -> forall d, In d (beams em) -> placed (m_nodes em) (fst d) /\ placed (m_nodes em) (snd d).
Proof.
  unfold prepare. destruct (given_nodes em) as [nodes| |]; cbn [bind]; try discriminate.
  destruct (edge_ids em) as [ids| |]; cbn [bind]; try discriminate.
  destruct (foldM (add_beam em ids) _ _) as [s0| |] eqn:Hf; cbn [bind]; try discriminate. intros _.
  unfold beams. revert Hf. generalize (Mesher [] [] nodes t_empty old). induction (t_ids (m_elems em)) as [|id l IH]; intros s1; cbn [foldM flat_map]; [contradiction|].
  destruct (add_beam em ids s1 id) as [s2| |] eqn:Ha; cbn [bind]; try discriminate. intros Hf d Hd.
  apply in_app_or in Hd. destruct Hd as [Hd|Hd]; [|eapply IH; eauto].
  unfold add_beam in Ha. unfold beam_of in Hd. destruct (t_get (m_elems em) id) as [e| |]; cbn [bind] in Ha; try discriminate.
  unfold is_beam in Ha. destruct (e_type e); try contradiction.
  destruct (e_nodes e) as [|a [|b [|]]]; try contradiction. destruct (e_faces e) as [|fa [|fb [|]]]; try discriminate.
  destruct Hd as [<-|[]]. cbn [fst snd].
  destruct (t_get (m_nodes em) a) as [ca| |] eqn:E1; cbn [bind] in Ha; try discriminate.
  destruct (t_get (m_nodes em) b) as [cb| |] eqn:E2; cbn [bind] in Ha; try discriminate. split; eexists; eassumption.
Qed.

Lemma generate_parts n j1 j2 j3 tol limit fuel old em points m inner :
  generate n j1 j2 j3 tol limit fuel old em points = Ok (Some (m, inner)) ->
  exists s s' m1 m2 m3, prepare old em points = Ok s /\ fill j1 j2 j3 tol limit fuel s = Ok (Some s') /\
    removeDanglingNodes (Mesh (ms_nodes s') t_empty (ms_elems s')) = Ok m1 /\ renumber m1 = Ok m2 /\ generateFaces n tol m2 = Ok m3 /\ m = fst m3.
Proof.
  unfold generate. destruct (prepare old em points) as [s| |] eqn:Hp; cbn [bind]; try discriminate.
  destruct (fill _ _ _ _ _ _ s) as [[s'|]| |] eqn:Hf; cbn [bind]; try discriminate.
  destruct (removeDanglingNodes _) as [m1| |] eqn:H1; cbn [bind]; try discriminate.
  destruct (renumber m1) as [m2| |] eqn:H2; cbn [bind]; try discriminate.
  destruct (generateFaces n tol m2) as [m3| |] eqn:H3; cbn [bind]; try discriminate.
  intros [= <- <-]. exists s, s', m1, m2, m3. auto 10.
Qed.

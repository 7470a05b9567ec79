(** Proofs about relaxNodes, and about the faces made by generateFaces. *)
From Coq Require Import ZArith List Bool QArith Lia Lqa Permutation.
From Verif Require Import Prelude Vec ZMap Mesh_Model HashGrid_Model Face_Model Query_Model Merge_Model Mesh_Spec Mesh_Proofs Face_Spec Face_Proofs
  Query_Props Front_Model Front_Spec Front_Proofs Front_Finish Tune_Model Tune_Spec Tune_Proofs.
Import ListNotations.
Open Scope Z_scope.

(** ** bBoundaryNode *)
Lemma mark_true l : forall s n, zat (fold_left (fun s n => zinsert n true s) l s) n = if existsb (Z.eqb n) l then Ok true else zat s n.
Proof.
  induction l as [|k l IH]; intros s n; [reflexivity|]. cbn [fold_left existsb]. rewrite IH.
  destruct (existsb (Z.eqb n) l); [now rewrite orb_true_r|]. rewrite orb_false_r. unfold zat. rewrite zlookup_insert. now destruct (n =? k).
Qed.

Lemma border_ok m : wf_mesh m -> exists s, border m = Ok s /\ forall n, In n (t_ids (m_nodes m)) ->
  (zat s n = Ok true /\ on_border m n) \/ (zat s n = Ok false /\ ~ on_border m n).
Proof.
  intros (Wn & Wf & We). unfold border.
  destruct (foldM_invariant (fun s fid => f <- t_get (m_faces m) fid ;;
           Ok (if f_haspair f then s else fold_left (fun s n => zinsert n true s) (f_nodes f) s))
    (fun done s => forall n, In n (t_ids (m_nodes m)) ->
       (zat s n = Ok true /\ exists fid f, In fid done /\ t_get (m_faces m) fid = Ok f /\ f_haspair f = false /\ In n (f_nodes f)) \/
       (zat s n = Ok false /\ ~ exists fid f, In fid done /\ t_get (m_faces m) fid = Ok f /\ f_haspair f = false /\ In n (f_nodes f)))
    (t_ids (m_faces m)) (fold_left (fun s n => zinsert n false s) (t_ids (m_nodes m)) zempty)) as (s & E & H).
  - intros n Hn. right. split; [now apply none_flipped_get|]. intros (fid & f & [] & _).
  - intros done id rest s El H. destruct (wf_get (m_faces m) id Wf) as [f Hf]; [rewrite El; apply in_elt|]. rewrite Hf. cbn [bind].
    eexists. split; [reflexivity|]. intros n Hn. specialize (H n Hn).
    assert (Hsp : (exists fid g, In fid (done ++ [id]) /\ t_get (m_faces m) fid = Ok g /\ f_haspair g = false /\ In n (f_nodes g)) <->
      (exists fid g, In fid done /\ t_get (m_faces m) fid = Ok g /\ f_haspair g = false /\ In n (f_nodes g)) \/ (f_haspair f = false /\ In n (f_nodes f))).
    { split.
      - intros (fid & g & Hin & Hg & Hp & Hi). apply in_app_iff in Hin. destruct Hin as [Hin|[<-|[]]]; [left; eauto 8|]. right. split; congruence.
      - intros [(fid & g & Hin & Hg)|[Hp Hi]]; [exists fid, g; rewrite in_app_iff; tauto|]. exists id, f. rewrite in_app_iff. cbn. tauto. }
    destruct (f_haspair f) eqn:Ep.
    + destruct H as [[A B]|[A B]]; [left|right]; (split; [exact A|]); rewrite Hsp; [now left|]. intros [C|[C _]]; [contradiction|discriminate].
    + rewrite mark_true. destruct (existsb (Z.eqb n) (f_nodes f)) eqn:Ex.
      * left. split; [reflexivity|]. apply Hsp. right. split; [reflexivity|]. apply existsb_exists in Ex. destruct Ex as (x & Hx & Exq). apply Z.eqb_eq in Exq. now subst.
      * assert (Hni : ~ In n (f_nodes f)). { intros C. assert (T : existsb (Z.eqb n) (f_nodes f) = true) by (apply existsb_exists; exists n; split; [exact C|apply Z.eqb_refl]). congruence. }
        destruct H as [[A B]|[A B]]; [left|right]; (split; [exact A|]); rewrite Hsp; [now left|]. intros [C|[_ C]]; contradiction.
  - exists s. split; [exact E|]. intros n Hn. destruct (H n Hn) as [[A B]|[A B]]; [left|right]; (split; [exact A|]).
    + destruct B as (fid & f & _ & B). now exists fid, f.
    + intros (fid & f & Hf & Hp & Hi). apply B. exists fid, f. split; [exact (wf_get_in _ _ _ Wf Hf)|auto].
Qed.

(** ** Nodes stay in every half space that contains all of them *)
Definition height (a b c : Q) (p : coord) : Q := (a * cx p + b * cy p + c * cz p)%Q.
Definition below (a b c d : Q) (t : table coord) : Prop := forall n p, t_get t n = Ok p -> (height a b c p <= d)%Q.

Lemma height_sum a b c d t l : below a b c d t -> (forall n, In n l -> exists p, t_get t n = Ok p) -> forall s,
  exists r, foldM (fun s k => c <- t_get t k ;; Ok (vadd s c)) l s = Ok r /\ (height a b c r <= height a b c s + inject_Z (zlen l) * d)%Q.
Proof.
  intros Hb. induction l as [|k l IH]; intros Hk s.
  - exists s. split; [reflexivity|]. change (inject_Z (zlen (@nil Z))) with 0%Q. lra.
  - cbn [foldM]. destruct (Hk k (or_introl eq_refl)) as [p Hp]. rewrite Hp. cbn [bind].
    destruct (IH (fun n Hn => Hk n (or_intror Hn)) (vadd s p)) as (r & E & H). exists r. split; [exact E|].
    assert (L : (inject_Z (zlen (k :: l)) == inject_Z (zlen l) + 1)%Q).
    { unfold zlen. cbn [length]. rewrite Nat2Z.inj_succ. unfold Z.succ. now rewrite inject_Z_plus. }
    assert (V : (height a b c (vadd s p) == height a b c s + height a b c p)%Q) by (unfold height, vadd; cbn; ring).
    specialize (Hb k p Hp). rewrite L. rewrite V in H. lra.
Qed.

Lemma mean_below a b c d t l : below a b c d t -> l <> [] -> (forall n, In n l -> exists p, t_get t n = Ok p) ->
  exists p, mean_of t l = Ok p /\ (height a b c p <= d)%Q.
Proof.
  intros Hb Hl Hk. unfold mean_of. destruct (height_sum a b c d t l Hb Hk vzero) as (r & E & H). rewrite E. cbn [bind].
  eexists. split; [reflexivity|].
  assert (V : (height a b c (vscale (/ inject_Z (zlen l)) r) == height a b c r / inject_Z (zlen l))%Q).
  { unfold height, vscale, Qdiv. cbn. ring. }
  assert (Hp : (0 < inject_Z (zlen l))%Q).
  { change 0%Q with (inject_Z 0). rewrite <- Zlt_Qlt. unfold zlen. destruct l; [contradiction|]. cbn [length]. lia. }
  assert (Hz : (height a b c vzero == 0)%Q) by (unfold height, vzero; cbn; ring).
  rewrite V. apply Qle_shift_div_r; [exact Hp|]. rewrite Hz in H. rewrite Qmult_comm. lra.
Qed.

(** ** The ring of a node *)
Lemma note_new_in l n x : In x (note_new l n) <-> In x l \/ x = n.
Proof.
  unfold note_new. destruct (existsb (Z.eqb n) l) eqn:E.
  - apply existsb_exists in E. destruct E as (y & Hy & E). apply Z.eqb_eq in E. subst y. split; [tauto|]. intros [H| ->]; auto.
  - rewrite in_app_iff. cbn. intuition congruence.
Qed.
Lemma note_all_in l : forall acc x, In x (fold_left note_new l acc) <-> In x acc \/ In x l.
Proof.
  induction l as [|n l IH]; intros acc x; cbn [fold_left In]; [tauto|]. rewrite IH, note_new_in. intuition congruence.
Qed.

Lemma ring_ok elems n els : (forall el, In el els -> exists e, t_get elems el = Ok e) ->
  exists l, ring elems n els = Ok l /\ In n l /\ forall x, In x l -> x = n \/ exists el e, In el els /\ t_get elems el = Ok e /\ is_triangle e = true /\ In x (e_nodes e).
Proof.
  intros Hk. unfold ring.
  destruct (foldM_invariant (fun acc el => e <- t_get elems el ;; Ok (if is_triangle e then fold_left note_new (e_nodes e) acc else acc))
    (fun done l => In n l /\ forall x, In x l -> x = n \/ exists el e, In el done /\ t_get elems el = Ok e /\ is_triangle e = true /\ In x (e_nodes e))
    els [n]) as (l & E & H); [split; [now left|intros x [<-|[]]; now left]| |eauto].
  intros done el rest acc El (Hn & H). destruct (Hk el) as [e He]; [rewrite El; apply in_elt|]. rewrite He. cbn [bind].
  eexists. split; [reflexivity|]. destruct (is_triangle e) eqn:Et.
  - split; [apply note_all_in; now left|]. intros x Hx. apply note_all_in in Hx. destruct Hx as [Hx|Hx].
    + destruct (H x Hx) as [->|(el' & e' & A & B)]; [now left|]. right. exists el', e'. rewrite in_app_iff. tauto.
    + right. exists el, e. rewrite in_app_iff. cbn. tauto.
  - split; [exact Hn|]. intros x Hx. destruct (H x Hx) as [->|(el' & e' & A & B)]; [now left|]. right. exists el', e'. rewrite in_app_iff. tauto.
Qed.

(** ** Qualities *)
Definition qual (quality : coord -> coord -> coord -> Q) (elems : table element) (t : table coord) (el : Z) : Q :=
  match t_get elems el with
  | Ok (Element ET_TRIANGLE [p; q; r] _) => quality (where_ t p) (where_ t q) (where_ t r)
  | _ => 0%Q end.

Lemma where_set t n p k : where_ (t_set t n p) k = if k =? n then p else where_ t k.
Proof. unfold where_, t_get, zat, t_set. cbn. rewrite zlookup_insert. now destruct (k =? n). Qed.

Section Relax.
Variable quality : coord -> coord -> coord -> Q.
Variable tol : Q.
Hypothesis Htol : (0 <= tol)%Q.
Variable m : mesh.
Hypothesis Wm : wf_mesh m.
Hypothesis Rm : refs_ok m.
Hypothesis Pm : proper m.

Definition with_nodes (t : table coord) : mesh := Mesh t (m_faces m) (m_elems m).

Lemma weigh_ok t n p : wf_table t -> t_ids t = t_ids (m_nodes m) -> forall els x y go,
  (forall el, In el els -> exists e, t_get (m_elems m) el = Ok e) ->
  exists x' y' go', foldM (weigh quality tol (m_elems m) t n p) els (x, y, go) = Ok (x', y', go') /\
    (go' = true -> go = true /\
       (x' == x + sum (map (qual quality (m_elems m) t) els))%Q /\
       (y' == y + sum (map (qual quality (m_elems m) (t_set t n p)) els))%Q /\
       forall el a b c, In el els -> triangle m el a b c ->
         upright tol (where_ (t_set t n p) a) (where_ (t_set t n p) b) (where_ (t_set t n p) c) = true).
Proof.
  intros Wt It. induction els as [|el els IH]; intros x y go Hk.
  - exists x, y, go. split; [reflexivity|]. intros ->. split; [reflexivity|]. cbn [map sum fold_right]. split; [ring|split; [ring|intros el a b c []]].
  - cbn [foldM]. unfold weigh at 1. cbn [fst snd]. destruct go; cbn [negb].
    + destruct (Hk el (or_introl eq_refl)) as [e He]. rewrite He. cbn [bind]. unfold is_triangle.
      destruct (e_type e) eqn:Ee; cbn [negb];
        try (destruct (IH x y true (fun k H => Hk k (or_intror H))) as (x' & y' & go' & E & H); cbn [bind]; exists x', y', go'; split; [exact E|]; intros Hg;
             destruct (H Hg) as (_ & A & B & C); split; [reflexivity|]; cbn [map sum fold_right]; fold (sum (map (qual quality (m_elems m) t) els));
             fold (sum (map (qual quality (m_elems m) (t_set t n p)) els));
             assert (Z1 : qual quality (m_elems m) t el = 0%Q) by (unfold qual; rewrite He; destruct e; cbn in Ee; subst; reflexivity);
             assert (Z2 : qual quality (m_elems m) (t_set t n p) el = 0%Q) by (unfold qual; rewrite He; destruct e; cbn in Ee; subst; reflexivity);
             rewrite Z1, Z2; split; [rewrite A; ring|split; [rewrite B; ring|]];
             intros el0 a b c [<-|Hin] Ht; [destruct Ht as [fs Ht]; rewrite He in Ht; injection Ht as ->; discriminate|eauto]).
      destruct (Pm _ _ He Ee) as (a & b & c & En & _). rewrite En. change (vec_at [a; b; c] 0) with (Ok a). change (vec_at [a; b; c] 1) with (Ok b).
      change (vec_at [a; b; c] 2) with (Ok c). cbn [bind].
      assert (Hn : forall z, In z [a; b; c] -> t_get t z = Ok (where_ t z)).
      { intros z Hz. destruct (wf_get t z Wt) as [w Hw]; [|unfold where_; now rewrite Hw]. rewrite It. pose proof (proj1 Rm _ _ He) as Fa. rewrite En in Fa.
        rewrite Forall_forall in Fa. now apply Fa. }
      rewrite (Hn a), (Hn b), (Hn c) by (cbn; auto). cbn [bind].
      rewrite <- !where_set.
      destruct (IH (x + quality (where_ t a) (where_ t b) (where_ t c))%Q (y + quality (where_ (t_set t n p) a) (where_ (t_set t n p) b) (where_ (t_set t n p) c))%Q
        (upright tol (where_ (t_set t n p) a) (where_ (t_set t n p) b) (where_ (t_set t n p) c)) (fun k H => Hk k (or_intror H))) as (x' & y' & go' & E & H).
      exists x', y', go'. split; [exact E|]. intros Hg. destruct (H Hg) as (U & A & B & C). split; [reflexivity|].
      assert (Ht : forall t0, qual quality (m_elems m) t0 el = quality (where_ t0 a) (where_ t0 b) (where_ t0 c)).
      { intros t0. unfold qual. rewrite He. destruct e as [ty nd fc]. cbn in Ee, En. subst. reflexivity. }
      cbn [map sum fold_right]. fold (sum (map (qual quality (m_elems m) t) els)). fold (sum (map (qual quality (m_elems m) (t_set t n p)) els)).
      rewrite !Ht. split; [rewrite A; ring|split; [rewrite B; ring|]].
      intros el0 a0 b0 c0 [<-|Hin] Htr; [|eauto]. destruct Htr as [fs Htr]. rewrite He in Htr. injection Htr as ->. cbn in En. injection En as -> -> ->. exact U.
    + destruct (IH x y false (fun k H => Hk k (or_intror H))) as (x' & y' & go' & E & H). cbn [bind]. exists x', y', go'. split; [exact E|].
      intros Hg. destruct (H Hg) as (C & _). discriminate.
Qed.

Record relaxing (fixed : zmap bool) (t : table coord) : Prop := Relaxing {
  rl_wf : wf_table t;
  rl_ids : t_ids t = t_ids (m_nodes m);
  rl_fixed : forall n, zat fixed n = Ok true -> t_get t n = t_get (m_nodes m) n;
  rl_alone : forall n, (forall id p q r, triangle m id p q r -> n <> p /\ n <> q /\ n <> r) -> t_get t n = t_get (m_nodes m) n;
  rl_below : forall a b c d, below a b c d (m_nodes m) -> below a b c d t;
  rl_upright : all_upright tol m -> all_upright tol (with_nodes t);
  rl_quality : (total_quality quality m <= total_quality quality (with_nodes t))%Q;
  rl_better : t = m_nodes m \/ (total_quality quality m < total_quality quality (with_nodes t))%Q
}.

Lemma sum_filter (f g : Z -> Q) (h : Z -> bool) l : (forall k, In k l -> h k = false -> f k = g k) ->
  (sum (map g l) == sum (map f l) + (sum (map g (filter h l)) - sum (map f (filter h l))))%Q.
Proof.
  induction l as [|k l IH]; intros H; [reflexivity|]. cbn [map sum fold_right filter].
  fold (sum (map g l)) (sum (map f l)). specialize (IH (fun x Hx => H x (or_intror Hx))).
  destruct (h k) eqn:E; cbn [map sum fold_right]; fold (sum (map g (filter h l))) (sum (map f (filter h l))); [|rewrite (H k (or_introl eq_refl) E)]; lra.
Qed.

Lemma relax_step_ok fixed q t n : relaxing fixed t -> In n (t_ids (m_nodes m)) -> (exists b, zat fixed n = Ok b) ->
  (forall k, q k = users (m_elems m) k) ->
  exists t', relax_step quality tol m fixed q t n = Ok t' /\ relaxing fixed t'.
Proof.
  intros L Hn [b Hb] Hq. unfold relax_step. pose proof (rl_wf _ _ L) as Wt. pose proof (rl_ids _ _ L) as It.
  destruct (wf_get t n Wt) as [c Hc]; [now rewrite It|]. rewrite Hc, Hb. cbn [bind]. destruct b; [eauto|].
  unfold sharing. rewrite Hq. set (els := users (m_elems m) n).
  assert (Hels : forall el, In el els -> exists e, t_get (m_elems m) el = Ok e /\ existsb (Z.eqb n) (e_nodes e) = true).
  { intros el Hel. unfold els, users in Hel. apply filter_In in Hel. destruct Hel as [_ Hel]. destruct (t_get (m_elems m) el); try discriminate. eauto. }
  assert (Hels' : forall el, In el els -> exists e, t_get (m_elems m) el = Ok e) by (intros el Hel; destruct (Hels el Hel) as (e & He & _); eauto).
  destruct (ring_ok (m_elems m) n els Hels') as (l & El & Hnl & Hl). rewrite El. cbn [bind].
  destruct (1 <? zlen l) eqn:E1; [|eauto].
  assert (Hkn : forall x, In x l -> exists p, t_get t x = Ok p).
  { intros x Hx. apply wf_get; [exact Wt|]. rewrite It. destruct (Hl x Hx) as [->|(el & e & _ & He & _ & Hi)]; [exact Hn|].
    pose proof (proj1 Rm _ _ He) as Fa. rewrite Forall_forall in Fa. auto. }
  assert (Hne : l <> []) by (destruct l; [destruct Hnl|discriminate]).
  destruct (height_sum 0 0 0 0 t l) with (s := vzero) as (s & Es & _); [intros k p Hp; unfold height; lra|exact Hkn|].
  assert (Em : mean_of t l = Ok (vscale (/ inject_Z (zlen l)) s)) by (unfold mean_of; now rewrite Es).
  rewrite Em. cbn [bind]. set (p := vscale (/ inject_Z (zlen l)) s) in *.
  destruct (weigh_ok t n p Wt It els 0%Q 0%Q true Hels') as (x' & y' & go' & Ew & Hgo). rewrite Ew. cbn [bind fst snd].
  eexists. split; [reflexivity|].
  destruct (go' && Qlt_bool x' y')%bool eqn:Eg; [|exact L]. apply andb_true_iff in Eg. destruct Eg as [Eg Elt]. apply Qlt_bool_iff in Elt.
  destruct (Hgo Eg) as (_ & Hx & Hy & Hup).
  destruct (t_set_wf t n p Wt) as [W1 G1]; [now rewrite It|].
  assert (Htr : forall id a b0 c0, triangle m id a b0 c0 -> n = a \/ n = b0 \/ n = c0 -> In id els).
  { intros id a b0 c0 [fs Ht] Ha. unfold els, users. apply filter_In. split; [exact (wf_get_in _ _ _ (proj2 (proj2 Wm)) Ht)|]. rewrite Ht. cbn.
    destruct Ha as [->|[->| ->]]; rewrite Z.eqb_refl, ?orb_true_r; reflexivity. }
  assert (Hother : forall id, In id (t_ids (m_elems m)) -> (match t_get (m_elems m) id with Ok e => existsb (Z.eqb n) (e_nodes e) | _ => false end) = false ->
    qual quality (m_elems m) t id = qual quality (m_elems m) (t_set t n p) id).
  { intros id _ Hno. unfold qual. destruct (t_get (m_elems m) id) as [[ty nd fc]| |]; try reflexivity. destruct ty; try reflexivity.
    destruct nd as [|a [|b0 [|c0 [|]]]]; try reflexivity. cbn in Hno. rewrite !where_set. apply orb_false_iff in Hno. destruct Hno as [A Hno].
    apply orb_false_iff in Hno. destruct Hno as [B Hno]. apply orb_false_iff in Hno. destruct Hno as [C _].
    rewrite (Z.eqb_sym a), (Z.eqb_sym b0), (Z.eqb_sym c0), A, B, C. reflexivity. }
  assert (Hmore : (total_quality quality (with_nodes t) < total_quality quality (with_nodes (t_set t n p)))%Q).
  { change (sum (map (qual quality (m_elems m) t) (t_ids (m_elems m))) < sum (map (qual quality (m_elems m) (t_set t n p)) (t_ids (m_elems m))))%Q.
    pose proof (sum_filter _ _ _ _ Hother) as S1. fold (users (m_elems m) n) in S1. fold els in S1. lra. }
  constructor.
  - exact W1.
  - exact It.
  - intros k Hk. rewrite G1. destruct (Z.eqb_spec k n); [congruence|]. now apply (rl_fixed _ _ L).
  - intros k Hk. rewrite G1. destruct (Z.eqb_spec k n) as [->|]; [|now apply (rl_alone _ _ L)]. exfalso.
    assert (Hex : exists z, In z l /\ z <> n).
    { apply Z.ltb_lt in E1. unfold zlen in E1. unfold ring in El.
      assert (ND : NoDup l).
      { destruct (foldM_invariant (fun acc el => e <- t_get (m_elems m) el ;; Ok (if is_triangle e then fold_left note_new (e_nodes e) acc else acc))
          (fun _ l => NoDup l) els [n]) as (l' & E' & H'); [repeat constructor; intros []| |congruence].
        intros done el rest acc Ed Hnd. destruct (Hels' el) as [e He]; [rewrite Ed; apply in_elt|]. rewrite He. cbn [bind]. eexists. split; [reflexivity|].
        destruct (is_triangle e); [|exact Hnd]. revert Hnd. generalize acc. clear. induction (e_nodes e) as [|x r IH]; intros acc Hnd; [exact Hnd|].
        cbn [fold_left]. apply IH. unfold note_new. destruct (existsb (Z.eqb x) acc) eqn:E; [exact Hnd|].
        apply NoDup_Add with (a := x) (l := acc). { replace (acc ++ [x]) with (acc ++ x :: []) by reflexivity. pose proof (Add_app x acc []) as A. now rewrite app_nil_r in A. }
        split; [exact Hnd|]. intros C. assert (T : existsb (Z.eqb x) acc = true) by (apply existsb_exists; exists x; split; [exact C|apply Z.eqb_refl]). congruence. }
      destruct l as [|z1 [|z2 l]]; cbn [length] in E1; try lia. destruct (Z.eq_dec z1 n) as [->|]; [|exists z1; cbn; auto].
      exists z2. split; [cbn; auto|]. intros ->. apply NoDup_cons_iff in ND. destruct ND as [ND _]. apply ND. now left. }
    destruct Hex as (z & Hz & Hzn). destruct (Hl z Hz) as [->|(el & e & Hel & He & Hty & _)]; [congruence|].
    destruct (Hels el Hel) as (e2 & He2 & Hin). assert (e2 = e) by congruence. subst e2. unfold is_triangle in Hty. destruct (e_type e) eqn:Ee; try discriminate.
    destruct (Pm _ _ He Ee) as (a & b0 & c0 & En & _). destruct (Hk el a b0 c0) as (A & B & C).
    { exists (e_faces e). rewrite He. destruct e. cbn in *. congruence. }
    rewrite En in Hin. cbn in Hin. destruct (Z.eqb_spec n a), (Z.eqb_spec n b0), (Z.eqb_spec n c0); try congruence; discriminate.
  - intros a b0 c0 d Hd k pk. rewrite G1. pose proof (rl_below _ _ L a b0 c0 d Hd) as Hd'. destruct (Z.eqb_spec k n) as [->|]; [|apply Hd'].
    intros [= <-]. destruct (mean_below a b0 c0 d t l Hd' Hne Hkn) as (p' & Ep & Hp'). rewrite Em in Ep. injection Ep as <-. exact Hp'.
  - intros Hu id a b0 c0 Ht. pose proof (rl_upright _ _ L Hu id a b0 c0 Ht) as (ca & cb & cc & Ga & Gb & Gc & Ar). cbn [with_nodes m_nodes] in *.
    assert (Hget : forall z w, t_get t z = Ok w -> t_get (t_set t n p) z = Ok (where_ (t_set t n p) z)).
    { intros z w Hw. rewrite G1, where_set. unfold where_. rewrite Hw. now destruct (z =? n). }
    exists (where_ (t_set t n p) a), (where_ (t_set t n p) b0), (where_ (t_set t n p) c0).
    split; [eauto|]. split; [eauto|]. split; [eauto|].
    destruct (Z.eq_dec n a) as [E|Na]; [|destruct (Z.eq_dec n b0) as [E|Nb]; [|destruct (Z.eq_dec n c0) as [E|Nc]]].
    + apply (upright_cross tol Htol). apply (Hup id); eauto.
    + apply (upright_cross tol Htol). apply (Hup id); eauto.
    + apply (upright_cross tol Htol). apply (Hup id); eauto.
    + rewrite !where_set. destruct (Z.eqb_spec a n), (Z.eqb_spec b0 n), (Z.eqb_spec c0 n); try congruence.
      rewrite (where_get _ _ _ Ga), (where_get _ _ _ Gb), (where_get _ _ _ Gc). exact Ar.
  - pose proof (rl_quality _ _ L). lra.
  - right. pose proof (rl_quality _ _ L). lra.
Qed.

Lemma relax_ok : exists fixed t, border m = Ok fixed /\ relaxNodes quality tol m = Ok (with_nodes t) /\ relaxing fixed t /\
  (forall n, In n (t_ids (m_nodes m)) -> (zat fixed n = Ok true /\ on_border m n) \/ (zat fixed n = Ok false /\ ~ on_border m n)).
Proof.
  destruct (border_ok m Wm) as (fixed & Eb & Hb). destruct (query_of_ok (m_elems m) (proj2 (proj2 Wm))) as (q & Eq & Hq).
  unfold relaxNodes. rewrite Eb, Eq. cbn [bind].
  destruct (foldM_invariant (relax_step quality tol m fixed q) (fun _ t => relaxing fixed t) (t_ids (m_nodes m)) (m_nodes m)) as (t & E & H).
  - constructor; auto; try apply Wm; try apply Qle_refl.
  - intros done n rest t Ed H. assert (Hin : In n (t_ids (m_nodes m))) by (rewrite Ed; apply in_elt).
    apply (relax_step_ok fixed q t n H Hin); [destruct (Hb n Hin) as [[A _]|[A _]]; eauto|exact Hq].
  - exists fixed, t. rewrite E. cbn [bind]. auto.
Qed.
End Relax.

(** ** Areas *)
Lemma area_net nodes (T T' : table element) : (forall a b, Z.of_nat (running (all_sides T') a b) - Z.of_nat (running (all_sides T') b a) =
    Z.of_nat (running (all_sides T) a b) - Z.of_nat (running (all_sides T) b a)) ->
  forall F F', (total_area2 (Mesh nodes F' T') == total_area2 (Mesh nodes F T))%Q.
Proof.
  intros H F F'. rewrite !total_area_sides. cbn [m_nodes m_elems]. set (v := fun a b => shoe (where_ nodes a) (where_ nodes b)).
  assert (C : (sum (map (fun d => v (fst d) (snd d)) (all_sides T' ++ map swap2 (all_sides T))) == 0)%Q).
  { apply (cancel v) with (n := length (all_sides T' ++ map swap2 (all_sides T))); [intros; unfold v, shoe; ring|lia|].
    intros a b _. rewrite !running_app, !running_swap. specialize (H a b). lia. }
  rewrite map_app, sum_app in C.
  assert (N : forall l, (sum (map (fun d => v (fst d) (snd d)) (map swap2 l)) == - sum (map (fun d => v (fst d) (snd d)) l))%Q).
  { induction l as [|d l IH]; [reflexivity|]. cbn [map sum fold_right]. fold (sum (map (fun d => v (fst d) (snd d)) (map swap2 l))).
    fold (sum (map (fun d => v (fst d) (snd d)) l)). rewrite IH. cbn [swap2 fst snd]. unfold v, shoe. ring. }
  rewrite N in C. unfold v in C. lra.
Qed.

Lemma running_filter (h : Z * Z -> bool) l a b : running (filter h l) a b = if h (a, b) then running l a b else 0%nat.
Proof.
  unfold running. induction l as [|d l IH]; [now destruct (h (a, b))|]. cbn [filter]. destruct ((fst d =? a) && (snd d =? b))%bool eqn:E.
  - apply andb_true_iff in E. destruct E as [E1 E2]. apply Z.eqb_eq in E1, E2. destruct d as [x y]. cbn in E1, E2. subst.
    destruct (h (a, b)) eqn:Eh; cbn [filter fst snd]; rewrite ?Z.eqb_refl; cbn [andb length]; rewrite IH; reflexivity.
  - destruct (h d); cbn [filter]; rewrite ?E; exact IH.
Qed.

Lemma area_moved (T : table element) (t t' : table coord) (keep : Z -> bool) : (forall n, keep n = true -> where_ t' n = where_ t n) ->
  (forall a b, a <> b -> keep a && keep b = false -> running (all_sides T) a b = running (all_sides T) b a) ->
  forall F F', (total_area2 (Mesh t' F' T) == total_area2 (Mesh t F T))%Q.
Proof.
  intros Hk H F F'. rewrite !total_area_sides. cbn [m_nodes m_elems].
  set (v := fun a b => (shoe (where_ t' a) (where_ t' b) - shoe (where_ t a) (where_ t b))%Q).
  set (h := fun d : Z * Z => negb (keep (fst d) && keep (snd d))%bool).
  assert (C : (sum (map (fun d => v (fst d) (snd d)) (filter h (all_sides T))) == 0)%Q).
  { apply (cancel v) with (n := length (filter h (all_sides T))); [intros; unfold v, shoe; ring|lia|].
    intros a b Hab. rewrite !running_filter. unfold h. cbn [fst snd]. rewrite (andb_comm (keep b)).
    destruct (keep a && keep b)%bool eqn:E; cbn [negb]; [reflexivity|]. now apply H. }
  assert (G : forall l, (sum (map (fun d => shoe (where_ t' (fst d)) (where_ t' (snd d))) l) ==
    sum (map (fun d => shoe (where_ t (fst d)) (where_ t (snd d))) l) + sum (map (fun d => v (fst d) (snd d)) (filter h l)))%Q).
  { clear C. induction l as [|d l IH]; [reflexivity|]. cbn [filter map sum fold_right].
    fold (sum (map (fun d => shoe (where_ t' (fst d)) (where_ t' (snd d))) l)). fold (sum (map (fun d => shoe (where_ t (fst d)) (where_ t (snd d))) l)).
    destruct (h d) eqn:E; cbn [map sum fold_right]; fold (sum (map (fun d => v (fst d) (snd d)) (filter h l))).
    - unfold v at 1. lra.
    - unfold h in E. apply negb_false_iff, andb_true_iff in E. destruct E as [K1 K2]. rewrite (Hk _ K1), (Hk _ K2). lra. }
  rewrite G. lra.
Qed.

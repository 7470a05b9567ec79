(** C39, C40, C78: mesh files (Gmsh, VTK, Gnuplot). *)
From Coq Require Import ZArith List Bool String QArith Qabs Lia Lqa.
From Verif Require Import Prelude Vec ZMap Mesh_Model Mesh_Spec Mesh_Proofs Post_Model.
Import ListNotations.
Open Scope Z_scope.

(** ** Vocabulary *)
(** A table reached by some sequence of insertions of fresh ids and removals of present ones. *)
Definition built {A} (t : table A) : Prop := exists ops, valid ops /\ run ops = Ok t.
(** The values of a table in the order in which a user enumerates them. *)
Definition lists {A} (t : table A) (vs : list A) : Prop := t_size t = zlen vs /\ forall n v, nth_error vs n = Some v -> at_pos t n = Ok v.
(** Number of nodes of an element. *)
Definition arity (t : etype) : option nat :=
  match t with ET_BEAM => Some 2%nat | ET_TRIANGLE => Some 3%nat | ET_QUADRILATERAL => Some 4%nat | ET_TETRAHEDRON => Some 4%nat | ET_HEXAHEDRON => Some 8%nat
  | ET_TRIANGULAR_PRISM => Some 6%nat | _ => None end.
Definition solid (e : element) : bool := match arity (e_type e) with Some _ => true | None => false end.
Definition whole (m : mesh) : Prop := forall id e, t_get (m_elems m) id = Ok e -> forall k, arity (e_type e) = Some k -> List.length (e_nodes e) = k.
Definition connected (m : mesh) : Prop := forall id e, t_get (m_elems m) id = Ok e -> Forall (fun n => In n (t_ids (m_nodes m))) (e_nodes e).
(** The coordinate is read back as it was printed with 16 digits. *)
Definition survives (parse : Z -> Q -> Q) (c : coord) : Prop := parse 16 (cx c) = cx c /\ parse 16 (cy c) = cy c /\ parse 16 (cz c) = cz c.

(** ** Loops *)
Lemma bind_Ok {A B} (x : outcome A) (f : A -> outcome B) b : (y <- x ;; f y) = Ok b -> exists a, x = Ok a /\ f a = Ok b.
Proof. destruct x; cbn; intros H; [eauto|discriminate|discriminate]. Qed.
Lemma mapM_range {A B} (l : list A) (f : A -> outcome B) : mapM (fun i => a <- vec_at l i ;; f a) (zrange (List.length l)) = mapM f l.
Proof.
  assert (G : forall suf pre, l = pre ++ suf -> mapM (fun i => a <- vec_at l i ;; f a) (map Z.of_nat (seq (List.length pre) (List.length suf))) = mapM f suf).
  { induction suf as [|x suf IH]; intros pre E; [reflexivity|]. cbn [List.length seq map mapM]. rewrite vec_at_nat. rewrite E, nth_error_app2, Nat.sub_diag by lia. cbn [nth_error bind]. destruct (f x); cbn [bind]; try reflexivity.
    rewrite <- E. specialize (IH (pre ++ [x])). rewrite app_length in IH. cbn [List.length] in IH. replace (List.length pre + 1)%nat with (Datatypes.S (List.length pre)) in IH by lia. rewrite IH; [reflexivity|]. rewrite <- app_assoc. exact E. }
  apply (G l [] eq_refl).
Qed.
Lemma mapM_positions {A B} (t : table A) (f : Z -> outcome B) : mapM (fun i => id <- t_id t i ;; f id) (positions t) = mapM f (t_ids t).
Proof. unfold positions, t_size, zlen, t_id. rewrite Nat2Z.id. apply mapM_range. Qed.
Lemma mapM_Forall2 {A B} (f : A -> outcome B) l r : mapM f l = Ok r <-> Forall2 (fun a b => f a = Ok b) l r.
Proof.
  revert r. induction l as [|a l IH]; intros r; cbn [mapM].
  - split; [intros [= <-]; constructor|intros H; inversion H; reflexivity].
  - split.
    + intros H. apply bind_Ok in H. destruct H as (b & Hb & H). apply bind_Ok in H. destruct H as (bs & Hbs & [= <-]). constructor; [exact Hb|now apply IH].
    + intros H. inversion H as [|? b ? bs Hb Hbs]; subst. rewrite Hb. cbn. apply IH in Hbs. now rewrite Hbs.
Qed.
Lemma mapM_ext {A B} (f g : A -> outcome B) l : (forall a, f a = g a) -> mapM f l = mapM g l.
Proof. intros H. induction l as [|a l IH]; [reflexivity|]. cbn. now rewrite H, IH. Qed.
Lemma Forall2_nth {A B} (P : A -> B -> Prop) l r : Forall2 P l r -> forall n a, nth_error l n = Some a -> exists b, nth_error r n = Some b /\ P a b.
Proof. induction 1; intros [|n] c E; cbn in *; try discriminate; [injection E as <-; eauto|eauto]. Qed.

Lemma Forall2_len {A B} (P : A -> B -> Prop) l r : Forall2 P l r -> List.length l = List.length r.
Proof. induction 1; cbn; congruence. Qed.
Lemma nth_error_ext {A} (l k : list A) : (forall i, nth_error l i = nth_error k i) -> l = k.
Proof.
  revert k. induction l as [|a l IH]; intros [|b k] H; [reflexivity|specialize (H 0%nat); discriminate|specialize (H 0%nat); discriminate|].
  assert (E := H 0%nat). cbn in E. injection E as <-. f_equal. apply IH. intros i. exact (H (Datatypes.S i)).
Qed.

(** ** What a table contains *)
(** Index and value of every entry, in order. *)
Lemma table_pairs {A} (t : table A) (vs : list A) : built t -> lists t vs ->
  exists ps, map snd ps = vs /\ NoDup (map fst ps) /\ Forall2 (fun id p => t_index t id = Ok (fst p) /\ t_get t id = Ok (snd p)) (t_ids t) ps.
Proof.
  intros (ops & V & R) [L H]. destruct (run_repr ops V) as (t' & R' & P). rewrite R in R'. injection R' as <-. set (l := ledger ops) in *.
  assert (W := repr_wf t l P). destruct W as [N _].
  assert (G : forall ids, (forall id, In id ids -> In id (t_ids t)) -> exists ps, Forall2 (fun id p => t_index t id = Ok (fst p) /\ t_get t id = Ok (snd p)) ids ps).
  { induction ids as [|id ids IH]; intros I; [exists []; constructor|]. destruct IH as (ps & F); [intros; apply I; now right|]. assert (J := I id (or_introl eq_refl)). rewrite (r_ids _ _ P) in J. apply in_live in J. destruct J as (v & J).
    apply In_nth_error in J as E. destruct E as (n & E). exists ((Z.of_nat n, v) :: ps). constructor; [|exact F]. cbn. split; [now apply (repr_index t l n id v)|]. apply zat_Ok. now apply (r_map _ _ P). }
  destruct (G (t_ids t) (fun _ I => I)) as (ps & F). exists ps. split; [|split; [|exact F]].
  - assert (El : List.length ps = List.length vs). { apply Forall2_len in F. unfold t_size, zlen in L. lia. }
    clear G. assert (Q : forall n v, nth_error vs n = Some v -> nth_error (map snd ps) n = Some v).
    { intros n v E. specialize (H n v E). unfold at_pos in H. apply bind_Ok in H. destruct H as (id & Hid & Hv). unfold t_id in Hid. rewrite vec_at_nat in Hid. destruct (nth_error (t_ids t) n) as [i|] eqn:E1; [|discriminate]. injection Hid as ->.
      destruct (Forall2_nth _ _ _ F n id E1) as (p & E2 & _ & G2). rewrite nth_error_map, E2. cbn. congruence. }
    apply nth_error_ext. intros n. destruct (nth_error vs n) as [v|] eqn:E; [now apply Q|]. apply nth_error_None in E. apply nth_error_None. rewrite map_length. lia.
  - clear G H L. assert (K : forall ids qs, NoDup ids -> Forall2 (fun id p => t_index t id = Ok (fst p) /\ t_get t id = Ok (snd p)) ids qs -> NoDup (map fst qs)).
    { induction ids as [|id ids IH]; intros qs Nd F'; inversion F' as [|? p ? ps' [Hp _] Hps]; subst; [constructor|]. inversion Nd; subst. cbn. constructor; [|now apply IH]. intros I. apply in_map_iff in I. destruct I as (q & Eq & Iq).
      apply In_nth_error in Iq. destruct Iq as (n & En). assert (exists id', nth_error ids n = Some id' /\ t_index t id' = Ok (fst q)) as (id' & E' & Hq).
      { clear - Hps En. revert n En. induction Hps as [|a b la lb [H _] Hl IHl]; intros [|n] En; cbn in *; try discriminate; [injection En as <-; eauto|eauto]. }
      rewrite Eq in Hq. apply zat_Ok in Hp, Hq. apply (r_idx _ _ P) in Hp, Hq. destruct Hp as (n1 & v1 & E1 & N1), Hq as (n2 & v2 & E2 & N2). assert (n1 = n2) by lia. subst n2. rewrite N1 in N2. injection N2 as -> _. apply nth_error_In in E'. contradiction. }
    now apply (K (t_ids t) ps).
Qed.

(** ** Reading *)
Lemma fold_adds {A} (ps : list (Z * A)) : NoDup (map fst ps) -> exists t, fold_left (fun t p => t_add t (fst p) (snd p)) ps t_empty = t /\ repr t (map (fun p => Entry (fst p) (snd p) true) ps).
Proof.
  intros N. destruct (run_adds ps N) as (t & R & P). exists t. split; [|exact P]. unfold run, adds in R.
  assert (G : forall qs (s : table A), foldM exec (map (fun p => Add (fst p) (snd p)) qs) s = Ok (fold_left (fun t p => t_add t (fst p) (snd p)) qs s)) by (induction qs as [|q qs IH]; intros s; cbn; auto). rewrite G in R. now injection R.
Qed.
Lemma adds_lists {A} (ps : list (Z * A)) : NoDup (map fst ps) -> lists (fold_left (fun t p => t_add t (fst p) (snd p)) ps t_empty) (map snd ps).
Proof.
  intros N. destruct (fold_adds ps N) as (t & -> & P). destruct (repr_adds_facts t ps P) as (E & F & _). split; [unfold t_size, zlen; rewrite E, !map_length; reflexivity|].
  intros n v H. rewrite nth_error_map in H. destruct (nth_error ps n) as [[id w]|] eqn:En; [|discriminate]. injection H as <-. destruct (F n id w En) as (F1 & _ & F2). unfold at_pos. rewrite F1. exact F2.
Qed.
Lemma adds_get {A} (ps : list (Z * A)) k v : NoDup (map fst ps) -> In (k, v) ps -> t_get (fold_left (fun t p => t_add t (fst p) (snd p)) ps t_empty) k = Ok v.
Proof.
  intros N I. destruct (fold_adds ps N) as (t & -> & P). destruct (repr_adds_facts t ps P) as (_ & F & _). apply In_nth_error in I. destruct I as (n & En). now destruct (F n k v En) as (_ & _ & F2).
Qed.
Definition node_line (p : Z * coord) : line := WI (fst p + 1) :: number3 16 (snd p).
Lemma load_nodes parse ps : (forall p, In p ps -> survives parse (snd p)) -> forall t rest,
  repeatM (List.length ps) (load_node parse) (t, [] :: map node_line ps ++ rest) = Ok (fold_left (fun t p => t_add t (fst p) (snd p)) ps t, [] :: rest).
Proof.
  induction ps as [|[k c] ps IH]; intros H t rest; [reflexivity|]. destruct (H (k, c) (or_introl eq_refl)) as (Hx & Hy & Hz). cbn in Hx, Hy, Hz.
  cbn [List.length repeatM map app]. unfold load_node at 1. cbn. rewrite Hx, Hy, Hz. replace (k + 1 - 1) with k by lia. destruct c as [x y z]. cbn. apply IH. intros p I. apply H. now right.
Qed.
Definition elem_line (p : Z * (etype * list Z)) : line := WI (fst p + 1) :: WI (gmsh_type (fst (snd p))) :: WI 0 :: map (fun k => WI (k + 1)) (snd (snd p)).
Definition kept (p : Z * (etype * list Z)) : bool := match arity (fst (snd p)) with Some _ => true | None => false end.
Lemma read_ints_line zs rest : read_ints (List.length zs) (map (fun k => WI (k + 1)) zs :: rest) = Ok (map (fun k => k + 1) zs, [] :: rest).
Proof. induction zs as [|z zs IH]; [reflexivity|]. cbn [List.length read_ints map]. unfold read_int. cbn [next bind snd]. rewrite IH. reflexivity. Qed.
Lemma kind_arity t : gmsh_kind (gmsh_type t) = match arity t with Some n => Some (t, n) | None => None end.
Proof. destruct t; reflexivity. Qed.
Lemma load_elem_line p t rest : (forall n, arity (fst (snd p)) = Some n -> List.length (snd (snd p)) = n) ->
  exists d, load_elem (t, elem_line p :: rest) = Ok (if kept p then t_add t (fst p) (Element (fst (snd p)) (snd (snd p)) []) else t, d) /\ (d = rest \/ d = [] :: rest).
Proof.
  destruct p as (k, (ty, ns)). cbn [fst snd]. intros H. unfold load_elem, elem_line, kept. cbn [fst snd]. unfold read_int at 1. cbn [next bind snd fst]. unfold read_int at 1. cbn [next bind snd fst]. unfold read_int at 1. cbn [next bind snd fst].
  rewrite kind_arity. destruct (arity ty) as [n|].
  - cbn [read_ints Z.to_nat bind snd]. rewrite <- (H n eq_refl), read_ints_line. cbn [bind fst snd]. rewrite map_map. replace (k + 1 - 1) with k by lia.
    rewrite (map_ext (fun x => x + 1 - 1) (fun x => x)) by (intros; lia). rewrite map_id. eauto.
  - cbn. eauto.
Qed.
Lemma load_elem_blank t d : load_elem (t, [] :: d) = load_elem (t, d).
Proof. reflexivity. Qed.
Lemma load_elems ps : (forall p, In p ps -> forall n, arity (fst (snd p)) = Some n -> List.length (snd (snd p)) = n) -> forall t d rest, d = map elem_line ps ++ rest \/ d = [] :: map elem_line ps ++ rest ->
  exists d', repeatM (List.length ps) load_elem (t, d) = Ok (fold_left (fun t p => t_add t (fst p) (Element (fst (snd p)) (snd (snd p)) [])) (filter kept ps) t, d').
Proof.
  induction ps as [|p ps IH]; intros H t d rest D; [exists d; reflexivity|]. cbn [List.length repeatM].
  assert (E : load_elem (t, d) = load_elem (t, elem_line p :: map elem_line ps ++ rest)) by (destruct D as [-> | ->]; reflexivity). rewrite E.
  destruct (load_elem_line p t (map elem_line ps ++ rest) (H p (or_introl eq_refl))) as (d1 & E1 & D1). rewrite E1. cbn [bind filter].
  destruct (IH (fun q I => H q (or_intror I)) (if kept p then t_add t (fst p) (Element (fst (snd p)) (snd (snd p)) []) else t) d1 rest D1) as (d' & E'). exists d'. etransitivity; [exact E'|]. destruct (kept p); reflexivity.
Qed.

Lemma fold_map {S A B} (g : S -> B -> S) (h : A -> B) l s : fold_left (fun t a => g t (h a)) l s = fold_left g (map h l) s.
Proof. revert s. induction l as [|a l IH]; intros s; [reflexivity|]. cbn. apply IH. Qed.

(** ** Writing *)
Lemma gmsh_nodes_lines m ps L : Forall2 (fun id p => t_index (m_nodes m) id = Ok (fst p) /\ t_get (m_nodes m) id = Ok (snd p)) (t_ids (m_nodes m)) ps ->
  mapM (gmsh_node m) (positions (m_nodes m)) = Ok L <-> L = map node_line ps.
Proof.
  intros F. unfold gmsh_node. rewrite mapM_positions. rewrite mapM_Forall2. revert L. induction F as [|id p ids ps [I G] F IH]; intros L.
  - split; [intros H; now inversion H|intros ->; constructor].
  - split.
    + intros H. inversion H as [|? l ? L' H1 H2]; subst. rewrite I, G in H1. cbn in H1. injection H1 as <-. apply IH in H2. now subst.
    + intros ->. cbn. constructor; [rewrite I, G; reflexivity|now apply IH].
Qed.
Definition written (m : mesh) (p : Z * element) (q : Z * (etype * list Z)) : Prop :=
  fst q = fst p /\ fst (snd q) = e_type (snd p) /\ Forall2 (fun n k => t_index (m_nodes m) n = Ok k) (e_nodes (snd p)) (snd (snd q)).
Lemma gmsh_elems_lines m ps L : Forall2 (fun id p => t_index (m_elems m) id = Ok (fst p) /\ t_get (m_elems m) id = Ok (snd p)) (t_ids (m_elems m)) ps ->
  mapM (gmsh_elem m) (positions (m_elems m)) = Ok L -> exists qs, L = map elem_line qs /\ Forall2 (written m) ps qs.
Proof.
  intros F. unfold gmsh_elem. rewrite mapM_positions. rewrite mapM_Forall2. revert L. induction F as [|id p ids ps [I G] F IH]; intros L H.
  - inversion H. exists []. split; [reflexivity|constructor].
  - inversion H as [|? l ? L' H1 H2]; subst. rewrite I, G in H1. cbn [bind] in H1. apply bind_Ok in H1. destruct H1 as (ns & Hn & [= <-]). destruct (IH L' H2) as (qs & -> & Fq).
    assert (exists ks, ns = map (fun k => WI (k + 1)) ks /\ Forall2 (fun n k => t_index (m_nodes m) n = Ok k) (e_nodes (snd p)) ks) as (ks & -> & Fk).
    { clear - Hn. apply mapM_Forall2 in Hn. induction Hn as [|n w l ws E _ (ks & -> & Fk)]; [exists []; split; [reflexivity|constructor]|]. apply bind_Ok in E. destruct E as (k & Ek & [= <-]). exists (k :: ks). split; [reflexivity|now constructor]. }
    exists ((fst p, (e_type (snd p), ks)) :: qs). split; [reflexivity|]. constructor; [|exact Fq]. repeat split; assumption.
Qed.
Lemma gmsh_elems_ok m ps : Forall2 (fun id p => t_index (m_elems m) id = Ok (fst p) /\ t_get (m_elems m) id = Ok (snd p)) (t_ids (m_elems m)) ps -> connected m ->
  (forall n, In n (t_ids (m_nodes m)) -> exists k, t_index (m_nodes m) n = Ok k) -> exists L, mapM (gmsh_elem m) (positions (m_elems m)) = Ok L.
Proof.
  intros F C X. unfold gmsh_elem. rewrite mapM_positions. induction F as [|id p ids ps [I G] F (L & IH)]; [exists []; reflexivity|]. cbn [mapM]. rewrite I, G. cbn [bind].
  assert (exists ns, mapM (fun n => k <- t_index (m_nodes m) n ;; Ok (WI (k + 1))) (e_nodes (snd p)) = Ok ns) as (ns & ->).
  { specialize (C id (snd p) G). induction C as [|n l Hn _ (ns & E)]; [exists []; reflexivity|]. destruct (X n Hn) as (k & Ek). exists (WI (k + 1) :: ns). cbn [mapM]. rewrite Ek. cbn [bind]. rewrite E. reflexivity. }
  cbn [bind]. rewrite IH. cbn. eauto.
Qed.
Lemma lists_all {A} (t : table A) : built t -> exists vs, lists t vs.
Proof.
  intros (ops & V & R). destruct (run_repr ops V) as (t' & R' & P). rewrite R in R'. injection R' as <-. exists (map en_val (live (ledger ops))). split.
  - unfold t_size, zlen. rewrite (r_ids _ _ P), !map_length. reflexivity.
  - intros n v E. rewrite nth_error_map in E. destruct (nth_error (live (ledger ops)) n) as [e|] eqn:En; [|discriminate]. injection E as <-. destruct (repr_get t _ n e P En) as [G1 G2]. unfold at_pos. rewrite G1. exact G2.
Qed.

(** ** Gmsh *)
(** A mesh without field data can always be saved. *)
Theorem C39_saves : forall m dofs loc name, built (m_nodes m) -> built (m_elems m) -> connected m -> exists file, gmsh_save m [] dofs loc name = Ok file.
Proof.
  intros m dofs loc name Bn Be C. destruct (lists_all _ Bn) as (ns & Ln). destruct (lists_all _ Be) as (es & Le). destruct (table_pairs _ ns Bn Ln) as (ps & _ & _ & Fn). destruct (table_pairs _ es Be Le) as (qs & _ & _ & Fe).
  unfold gmsh_save. rewrite (proj2 (gmsh_nodes_lines m ps _ Fn) eq_refl). cbn [bind]. destruct (gmsh_elems_ok m qs Fe C) as (L & ->); [|cbn; eauto].
  intros n I. apply In_nth_error in I. destruct I as (k & E). destruct (Forall2_nth _ _ _ Fn k n E) as (p & _ & H & _). eauto.
Qed.
Print Assumptions C39_saves.
(** Saving and loading gives the same nodes in the same order and, in order, the elements of the six kinds with the same type and corners at the same places,
    whatever the mesh held before, however ids are numbered and whatever was removed before. *)
Theorem C39_round_trip : forall m u dofs loc name file parse old ns es,
  built (m_nodes m) -> built (m_elems m) -> connected m -> whole m -> lists (m_nodes m) ns -> lists (m_elems m) es -> Forall (survives parse) ns ->
  gmsh_save m u dofs loc name = Ok file ->
  exists m' es', gmsh_load parse file old = Ok m' /\ lists (m_nodes m') ns /\ lists (m_elems m') es' /\
    Forall2 (fun e e' => e_type e' = e_type e /\ coords m' (e_nodes e') = coords m (e_nodes e)) (filter solid es) es'.
Proof.
  intros m u dofs loc name file parse old ns es Bn Be C W Ln Le Sv Sa. destruct (table_pairs _ ns Bn Ln) as (ps & En & Nn & Fn). destruct (table_pairs _ es Be Le) as (qs & Ee & Ne & Fe).
  unfold gmsh_save in Sa. rewrite (proj2 (gmsh_nodes_lines m ps _ Fn) eq_refl) in Sa. cbn [bind] in Sa. apply bind_Ok in Sa. destruct Sa as (L & EL & Sa). apply bind_Ok in Sa. destruct Sa as (d & _ & Sa). injection Sa as <-.
  destruct (gmsh_elems_lines m qs L Fe EL) as (rs & -> & Fr).
  assert (Wq : forall q, In q qs -> exists id, t_get (m_elems m) id = Ok (snd q)).
  { clear - Fe. intros q I. induction Fe as [|id p ids ps [_ G] F IH]; [destruct I|]. destruct I as [<-|I]; eauto. }
  assert (Ar : forall r, In r rs -> forall n, arity (fst (snd r)) = Some n -> List.length (snd (snd r)) = n).
  { clear - Fr Wq W. induction Fr as [|q r qs rs Wr F IH]; intros r' I; [destruct I|]. destruct I as [<-|I]; [|apply IH; [intros; apply Wq; now right|exact I]]. destruct Wr as (_ & E2 & F2). intros n Hn. destruct (Wq q (or_introl eq_refl)) as (id & G). rewrite E2 in Hn. rewrite <- (W id (snd q) G n Hn). symmetry. now apply Forall2_len in F2. }
  assert (Sz : Z.to_nat (t_size (m_nodes m)) = List.length ps) by (destruct Ln as [-> _]; unfold zlen; rewrite Nat2Z.id, <- En, map_length; reflexivity).
  assert (Sze : Z.to_nat (t_size (m_elems m)) = List.length rs) by (destruct Le as [-> _]; unfold zlen; rewrite Nat2Z.id, <- Ee, map_length; now apply Forall2_len in Fr).
  set (nodes' := fold_left (fun t p => t_add t (fst p) (snd p)) ps t_empty).
  assert (Sp : forall p, In p ps -> survives parse (snd p)) by (intros p I; rewrite Forall_forall in Sv; apply Sv; rewrite <- En; now apply in_map).
  unfold gmsh_load.
  set (tail := map node_line ps ++ _).
  change (match find_section "$MeshFormat" _ with Some d => _ | None => _ end) with ([WS "$Nodes"] :: [WI (t_size (m_nodes m))] :: tail).
  change (find_section "$Nodes" ([WS "$Nodes"] :: [WI (t_size (m_nodes m))] :: tail)) with (Some ([WI (t_size (m_nodes m))] :: tail)). cbv iota.
  unfold read_int at 1. cbn [next bind fst snd]. rewrite Sz. unfold tail. rewrite load_nodes by exact Sp. fold nodes'. cbn [bind snd fst]. clear tail.
  set (tail := map elem_line rs ++ _).
  match goal with |- context [find_section "$Elements" ?x] => change (find_section "$Elements" x) with (Some ([WI (t_size (m_elems m))] :: tail)) end. cbv iota.
  unfold read_int at 1. cbn [next bind fst snd]. rewrite Sze.
  destruct (load_elems rs Ar t_empty ([] :: tail) ([[WS "$EndElements"]] ++ d)) as (d' & E'); [now right|]. match type of E' with ?lhs = _ => match goal with |- context [repeatM ?n load_elem ?x] => replace (repeatM n load_elem x) with lhs by reflexivity end end. rewrite E'. cbn [bind fst].
  set (f := fun r : Z * (etype * list Z) => (fst r, Element (fst (snd r)) (snd (snd r)) [])). set (fs := map f (filter kept rs)).
  assert (Ef : fold_left (fun t p => t_add t (fst p) (Element (fst (snd p)) (snd (snd p)) [])) (filter kept rs) t_empty = fold_left (fun t p => t_add t (fst p) (snd p)) fs t_empty).
  { unfold fs. exact (fold_map (fun t p => t_add t (fst p) (snd p)) f (filter kept rs) t_empty). }
  assert (Nf : NoDup (map fst fs)).
  { unfold fs. rewrite map_map. cbn [f fst]. assert (Nr : NoDup (map fst rs)). { replace (map fst rs) with (map fst qs); [exact Ne|]. clear - Fr. induction Fr as [|q r qs rs (E & _) F IH]; cbn; congruence. }
    clear - Nr. induction rs as [|r rs IH]; [constructor|]. inversion Nr; subst. cbn [filter]. destruct (kept r); [|now apply IH]. cbn. constructor; [|now apply IH]. intros I. apply in_map_iff in I. destruct I as (x & Ex & Ix). apply filter_In in Ix. apply H1. rewrite <- Ex. now apply in_map. }
  exists (Mesh nodes' t_empty (fold_left (fun t p => t_add t (fst p) (snd p)) fs t_empty)), (map snd fs). rewrite Ef. split; [reflexivity|]. cbn [m_nodes m_elems]. split; [unfold nodes'; rewrite <- En; now apply adds_lists|]. split; [now apply adds_lists|].
  assert (Nd : forall n k, In n (t_ids (m_nodes m)) -> t_index (m_nodes m) n = Ok k -> t_get nodes' k = t_get (m_nodes m) n).
  { intros n k I X. apply In_nth_error in I. destruct I as (j & E). destruct (Forall2_nth _ _ _ Fn j n E) as ((k', c) & Ep & Hi & Hg). cbn in Hi, Hg. rewrite X in Hi. injection Hi as <-. rewrite Hg. apply adds_get; [exact Nn|]. now apply nth_error_In in Ep. }
  rewrite <- Ee. unfold coords. cbn [m_nodes]. unfold fs. rewrite map_map. cbn [f snd]. clear - Fr Nd C Wq. induction Fr as [|q r qs rs Wr F IH]; [constructor|]. specialize (IH (fun q' I => Wq q' (or_intror I))). destruct Wr as (E1 & E2 & F2). cbn [map filter]. unfold kept at 1, solid at 1. rewrite E2. destruct (arity (e_type (snd q))); [|exact IH]. cbn [map]. constructor; [|exact IH]. cbn [e_type e_nodes].
  split; [exact E2|]. destruct (Wq q (or_introl eq_refl)) as (id & G). specialize (C id (snd q) G). clear - F2 C Nd. induction F2 as [|n k l ks X F2 IH]; [reflexivity|]. inversion C; subst. cbn. rewrite IH by assumption. now rewrite (Nd n k).
Qed.
Print Assumptions C39_round_trip.
(** A mesh with arbitrary ids from which a node was removed, a beam, a point element and a triangle. *)
Definition some_ops : list (op coord) := [Add 10 (Coord 0 0 0); Add 7 (Coord 1 0 0); Remove 7; Add 5 (Coord 0 1 0); Add 8 (Coord 0 0 1)].
Definition some_eops : list (op element) := [Add 4 (Element ET_BEAM [10; 8] []); Add 2 (Element ET_NODE [5] []); Add 9 (Element ET_TRIANGLE [10; 5; 8] [])].
Definition some_mesh : mesh := match run some_ops, run some_eops with Ok n, Ok e => Mesh n t_empty e | _, _ => mesh_empty end.
Lemma some_built : built (m_nodes some_mesh) /\ built (m_elems some_mesh) /\ connected some_mesh /\ whole some_mesh.
Proof.
  split; [exists some_ops; split; [cbn; intuition discriminate|reflexivity]|]. split; [exists some_eops; split; [cbn; intuition discriminate|reflexivity]|].
  assert (G : forall id e, t_get (m_elems some_mesh) id = Ok e -> In e [Element ET_BEAM [10; 8] []; Element ET_NODE [5] []; Element ET_TRIANGLE [10; 5; 8] []]).
  { intros id e H. apply zat_Ok in H. cbn in H. repeat match type of H with context [if ?b then _ else _] => destruct b | context [match ?b with _ => _ end] => destruct b end; try discriminate; injection H as <-; cbn; auto. }
  split.
  - intros id e H. apply G in H. cbn in H. destruct H as [<-|[<-|[<-|[]]]]; repeat (apply Forall_cons; [cbn; auto|]); apply Forall_nil.
  - intros id e H k A. apply G in H. cbn in H. destruct H as [<-|[<-|[<-|[]]]]; cbn in *; congruence.
Qed.
Example C39_case : match gmsh_save some_mesh [] 1 DL_NODE "x" with
  | Ok file => gmsh_load (fun _ x => x) file some_mesh = Ok (match run [Add 0 (Coord 0 0 0); Add 2 (Coord 0 1 0); Add 3 (Coord 0 0 1)], run [Add 0 (Element ET_BEAM [0; 3] []); Add 2 (Element ET_TRIANGLE [0; 2; 3] [])] with
      | Ok n, Ok e => Mesh n t_empty e | _, _ => mesh_empty end)
  | _ => False end.
Proof. vm_compute. reflexivity. Qed.
(** Point elements are written but not read. *)
Theorem C39_points_refuted : exists m file m', built (m_nodes m) /\ built (m_elems m) /\ connected m /\ t_size (m_elems m) = 1 /\
  gmsh_save m [] 1 DL_NODE "x" = Ok file /\ gmsh_load (fun _ x => x) file mesh_empty = Ok m' /\ t_size (m_elems m') = 0.
Proof.
  set (m := Mesh (t_add t_empty 0 (Coord 0 0 0)) t_empty (t_add t_empty 0 (Element ET_NODE [0] []))). eexists m, _, _.
  split; [exists [Add 0 (Coord 0 0 0)]; split; [cbn; tauto|reflexivity]|]. split; [exists [Add 0 (Element ET_NODE [0] [])]; split; [cbn; tauto|reflexivity]|].
  split; [|split; [reflexivity|split; [vm_compute; reflexivity|split; [vm_compute; reflexivity|reflexivity]]]].
  intros id e H. apply zat_Ok in H. cbn in H. repeat match type of H with context [if ?b then _ else _] => destruct b | context [match ?b with _ => _ end] => destruct b end; try discriminate; injection H as <-; repeat (apply Forall_cons; [cbn; auto|]); apply Forall_nil.
Qed.
Print Assumptions C39_points_refuted.
(** Field data is written with positions taken for ids: on a mesh whose single node has id 5, saving throws. *)
Theorem C39_data_refuted : exists m, built (m_nodes m) /\ built (m_elems m) /\ connected m /\ gmsh_save m [1%Q] 1 DL_NODE "x" = Throw.
Proof.
  exists (Mesh (t_add t_empty 5 (Coord 0 0 0)) t_empty t_empty). split; [exists [Add 5 (Coord 0 0 0)]; split; [cbn; tauto|reflexivity]|]. split; [exists []; split; [exact I|reflexivity]|]. split; [intros id e H; discriminate H|]. reflexivity.
Qed.
Print Assumptions C39_data_refuted.
(** Field data with one, two or three values per node, on a mesh with node ids 0, 1, 2, ...: line [k] holds the number of node [k] and its values. *)
Theorem C39_values : forall m u dofs name file, In dofs [1; 2; 3]%nat -> u <> [] -> t_ids (m_nodes m) = zrange (List.length (t_ids (m_nodes m))) -> indexed (m_nodes m) ->
  List.length u = (dofs * List.length (t_ids (m_nodes m)))%nat -> gmsh_save m u (Z.of_nat dofs) DL_NODE name = Ok file ->
  exists before rows, file = before ++ [[WS "$NodeData"]; [WI 1]; [WS name]; [WI 1]; [WS "0.0"]; [WI 3]; [WI 0]; [WI (Z.of_nat dofs)]; [WI (zlen rows)]] ++ rows ++ [[WS "$EndNodeData"]] /\
    List.length rows = List.length (t_ids (m_nodes m)) /\
    forall k, (k < List.length rows)%nat -> nth_error rows k = Some (WI (Z.of_nat k + 1) :: map (WD 16) (firstn dofs (skipn (k * dofs) u))).
Proof.
  intros m u dofs name file D Hu Ei [X _] L H. set (n := List.length (t_ids (m_nodes m))) in *. unfold gmsh_save in H. apply bind_Ok in H. destruct H as (ns & _ & H). apply bind_Ok in H. destruct H as (es & _ & H). apply bind_Ok in H. destruct H as (d & Hd & H). injection H as <-.
  destruct u as [|x0 u0] eqn:Eu; [contradiction|]. rewrite <- Eu in *. clear Eu x0 u0. unfold gmsh_view in Hd. apply bind_Ok in Hd. destruct Hd as (rows & Hr & Hd). injection Hd as <-.
  set (row := fun k : nat => WI (Z.of_nat k + 1) :: map (WD 16) (firstn dofs (skipn (k * dofs) u))).
  assert (Row : forall k, (k < n)%nat -> gmsh_data (m_nodes m) u (Z.of_nat dofs) (Z.of_nat k) = Ok [row k]).
  { intros k Hk. unfold gmsh_data. assert (Ik : t_index (m_nodes m) (Z.of_nat k) = Ok (Z.of_nat k)).
    { apply X. unfold t_id. rewrite Ei, vec_at_nat. unfold zrange. rewrite nth_error_map, (nth_error_nth' _ 0%nat) by (now rewrite seq_length). now rewrite seq_nth. }
    rewrite Ik. cbn [bind]. unfold row.
    assert (Get : forall j, (k * dofs + j < List.length u)%nat -> vec_get u (Z.of_nat k * Z.of_nat dofs + Z.of_nat j) = Ok (nth (k * dofs + j) u 0%Q)).
    { intros j Hj. unfold vec_get. destruct (Z.ltb_spec (Z.of_nat k * Z.of_nat dofs + Z.of_nat j) 0); [lia|]. replace (Z.to_nat (Z.of_nat k * Z.of_nat dofs + Z.of_nat j)) with (k * dofs + j)%nat by lia. now rewrite (nth_error_nth' _ 0%Q). }
    assert (Fs : forall a i (v : list Q), (i + a <= List.length v)%nat -> firstn a (skipn i v) = map (fun j => nth (i + j) v 0%Q) (seq 0 a)).
    { assert (Sk : forall i (v : list Q), (i < List.length v)%nat -> skipn i v = nth i v 0%Q :: skipn (Datatypes.S i) v).
      { induction i as [|i IHi]; intros [|y v] Hv; cbn in Hv; try lia; [reflexivity|]. cbn [skipn nth]. rewrite IHi by lia. reflexivity. }
      induction a as [|a IHa]; intros i v Hv; [reflexivity|]. rewrite Sk by lia. cbn [firstn seq map]. rewrite Nat.add_0_r. f_equal. rewrite IHa by lia. rewrite <- seq_shift, map_map. apply map_ext. intros j. f_equal. lia. }
    rewrite Fs by (cbn in D; destruct D as [<-|[<-|[<-|[]]]]; lia).
    cbn in D. destruct D as [<-|[<-|[<-|[]]]]; cbn [Z.of_nat Pos.of_succ_nat Pos.succ Z.eqb Pos.eqb seq map].
    - assert (G := Get 0%nat ltac:(lia)). replace (Z.of_nat k * Z.of_nat 1 + Z.of_nat 0) with (Z.of_nat k) in G by lia. now rewrite G.
    - assert (G0 := Get 0%nat ltac:(lia)). assert (G1 := Get 1%nat ltac:(lia)). replace (Z.of_nat k * Z.of_nat 2 + Z.of_nat 0) with (Z.of_nat k * 2) in G0 by lia. replace (Z.of_nat k * Z.of_nat 2 + Z.of_nat 1) with (Z.of_nat k * 2 + 1) in G1 by lia. rewrite G0. cbn [bind]. rewrite G1. reflexivity.
    - assert (G0 := Get 0%nat ltac:(lia)). assert (G1 := Get 1%nat ltac:(lia)). assert (G2 := Get 2%nat ltac:(lia)). replace (Z.of_nat k * Z.of_nat 3 + Z.of_nat 0) with (Z.of_nat k * 3) in G0 by lia. replace (Z.of_nat k * Z.of_nat 3 + Z.of_nat 1) with (Z.of_nat k * 3 + 1) in G1 by lia. replace (Z.of_nat k * Z.of_nat 3 + Z.of_nat 2) with (Z.of_nat k * 3 + 2) in G2 by lia.
      rewrite G0. cbn [bind]. rewrite G1. cbn [bind]. rewrite G2. reflexivity. }
  assert (Er : List.concat rows = map row (seq 0 n)).
  { assert (Hr' : mapM (gmsh_data (m_nodes m) u (Z.of_nat dofs)) (map Z.of_nat (seq 0 n)) = Ok rows) by (unfold positions, zrange, t_size, zlen in Hr; rewrite Nat2Z.id in Hr; exact Hr). clear Hr. assert (Hs : forall k, In k (seq 0 n) -> (k < n)%nat) by (intros k Hk; apply in_seq in Hk; lia).
    revert rows Hr' Hs. generalize (seq 0 n). induction l as [|k l IH]; intros r M Hs; cbn [map mapM] in M; [injection M as <-; reflexivity|]. rewrite Row in M by (apply Hs; now left). cbn [bind] in M. apply bind_Ok in M. destruct M as (ls & Hls & M). injection M as <-. cbn. f_equal. apply IH; [exact Hls|]. intros; apply Hs; now right. }
  rewrite Er. exists ([[WS "$MeshFormat"]; [WS "2.2"; WI 0; WI 8]; [WS "$EndMeshFormat"]; [WS "$Nodes"]; [WI (t_size (m_nodes m))]] ++ ns ++ [[WS "$EndNodes"]; [WS "$Elements"]; [WI (t_size (m_elems m))]] ++ es ++ [[WS "$EndElements"]]), (map row (seq 0 n)).
  split; [replace (zlen (map row (seq 0 n))) with (t_size (m_nodes m)) by (unfold t_size, zlen; rewrite map_length, seq_length; reflexivity); rewrite <- !app_assoc; reflexivity|]. split; [now rewrite map_length, seq_length|].
  intros k Hk. rewrite map_length, seq_length in Hk. rewrite nth_error_map, (nth_error_nth' _ 0%nat) by (now rewrite seq_length). now rewrite seq_nth.
Qed.
Print Assumptions C39_values.
Example C39_case_values : exists before, gmsh_save (Mesh (t_add (t_add t_empty 0 (Coord 1 2 3)) 1 (Coord 4 5 6)) t_empty t_empty) [7; 8; 9; 10]%Q 2 DL_NODE "v" =
  Ok (before ++ [[WI 1; WD 16 7; WD 16 8]; [WI 2; WD 16 9; WD 16 10]; [WS "$EndNodeData"]]).
Proof. eexists [_; _; _; _; _; _; _; _; _; _; _; _; _; _; _; _; _; _; _; _]. vm_compute. reflexivity. Qed.
(** 16 digits do not determine a double: two neighbouring doubles (0.3 and 0.1 + 0.2) have the same 16-digit decimal nearest to them, 0.3000000000000000, so at most one of them can survive. *)
Theorem C39_precision_refuted : exists a b d : Z, a <> b /\ 2 ^ 52 <= a < 2 ^ 53 /\ 2 ^ 52 <= b < 2 ^ 53 /\ 10 ^ 15 <= d < 10 ^ 16 /\
  (Qabs (inject_Z a / inject_Z (2 ^ 54) - inject_Z d / inject_Z (10 ^ 16)) < (1 # 2) / inject_Z (10 ^ 16))%Q /\
  (Qabs (inject_Z b / inject_Z (2 ^ 54) - inject_Z d / inject_Z (10 ^ 16)) < (1 # 2) / inject_Z (10 ^ 16))%Q.
Proof. exists 5404319552844595, 5404319552844596, 3000000000000000. repeat split; vm_compute; congruence. Qed.
Print Assumptions C39_precision_refuted.

(** ** VTK *)
Definition vtk_kind (e : element) : Prop := In (e_type e) [ET_BEAM; ET_TRIANGLE; ET_TETRAHEDRON; ET_HEXAHEDRON; ET_TRIANGULAR_PRISM].
Definition words (d : document) : Z := fold_right (fun l n => zlen l + n) 0 d.
(** The parts of a file. *)
Definition vtk_parts (m : mesh) (file points cells types rest : document) (size : Z) : Prop :=
  file = [[WS "#"; WS "vtk"; WS "DataFile"; WS "Version"; WS "2.0"]; [WS "."]; [WS "ASCII"]; [WS "DATASET"; WS "UNSTRUCTURED_GRID"]; [WS "POINTS"; WI (t_size (m_nodes m)); WS "float"]] ++ points ++
         [[WS "CELLS"; WI (t_size (m_elems m)); WI size]] ++ cells ++ [[WS "CELL_TYPES"; WI (t_size (m_elems m))]] ++ types ++ rest /\
  zlen points = t_size (m_nodes m) /\ zlen cells = t_size (m_elems m) /\ zlen types = t_size (m_elems m).
Lemma mapM_len {A B} (f : A -> outcome B) l r : mapM f l = Ok r -> List.length r = List.length l.
Proof. intros H. apply mapM_Forall2 in H. symmetry. now apply Forall2_len in H. Qed.
Lemma positions_len {A} (t : table A) : Z.of_nat (List.length (positions t)) = t_size t.
Proof. unfold positions, zrange. rewrite map_length, seq_length. unfold t_size, zlen. rewrite Nat2Z.id. reflexivity. Qed.
Lemma vtk_save_parts m u dofs loc file : vtk_save m u dofs loc = Ok file -> exists points cells types rest size, vtk_parts m file points cells types rest size /\
  vtk_size m = Ok size /\ mapM (vtk_point m) (positions (m_nodes m)) = Ok points /\ mapM (vtk_cell m) (positions (m_elems m)) = Ok cells /\ mapM (vtk_cell_type m) (positions (m_elems m)) = Ok types.
Proof.
  unfold vtk_save. intros H. apply bind_Ok in H. destruct H as (ps & Hp & H). apply bind_Ok in H. destruct H as (size & Hs & H). apply bind_Ok in H. destruct H as (cs & Hc & H). apply bind_Ok in H. destruct H as (ts & Ht & H). apply bind_Ok in H. destruct H as (d & _ & H). injection H as <-.
  exists ps, cs, ts, d, size. split; [|auto]. split; [reflexivity|]. unfold zlen. rewrite (mapM_len _ _ _ Hp), (mapM_len _ _ _ Hc), (mapM_len _ _ _ Ht), !positions_len. auto.
Qed.
Lemma foldM_ids {A} (t : table A) (f : Z -> Z -> outcome Z) n : foldM (fun n i => id <- t_id t i ;; f n id) (positions t) n = foldM f (t_ids t) n.
Proof.
  unfold positions, t_size, zlen, t_id. rewrite Nat2Z.id. generalize (t_ids t). intros l.
  assert (G : forall suf pre n, l = pre ++ suf -> foldM (fun n i => a <- vec_at l i ;; f n a) (map Z.of_nat (seq (List.length pre) (List.length suf))) n = foldM f suf n).
  { induction suf as [|x suf IH]; intros pre k E; [reflexivity|]. cbn [List.length seq map foldM]. rewrite vec_at_nat. rewrite E, nth_error_app2, Nat.sub_diag by lia. cbn [nth_error bind]. destruct (f k x); cbn [bind]; try reflexivity.
    rewrite <- E. specialize (IH (pre ++ [x]) a). rewrite app_length in IH. cbn [List.length] in IH. replace (List.length pre + 1)%nat with (Datatypes.S (List.length pre)) in IH by lia. apply IH. rewrite <- app_assoc. exact E. }
  apply (G l [] n eq_refl).
Qed.
(** If the mesh holds beams, triangles, tetrahedra, hexahedra and prisms, the cell section has as many lines as announced, every line starts with the number of corners
    that follow, and the words add up to the announced size. *)
Theorem C40_cells : forall m u dofs loc file, (forall id e, t_get (m_elems m) id = Ok e -> vtk_kind e) -> vtk_save m u dofs loc = Ok file ->
  exists points cells types rest size, vtk_parts m file points cells types rest size /\ words cells = size /\
    Forall (fun l => exists ks, l = WI (zlen ks) :: map WI ks) cells.
Proof.
  intros m u dofs loc file K H. destruct (vtk_save_parts _ _ _ _ _ H) as (ps & cs & ts & d & size & P & Hs & _ & Hc & _). exists ps, cs, ts, d, size. split; [exact P|].
  unfold vtk_size in Hs. rewrite foldM_ids in Hs. unfold vtk_cell in Hc. rewrite mapM_positions in Hc. clear P H.
  assert (Ln : forall e l, vtk_kind e -> (match vtk_order (e_type e) with
    | Some order => ns <- mapM (fun j => n <- vec_at (e_nodes e) j ;; k <- t_index (m_nodes m) n ;; Ok (WI k)) order ;; Ok (WI (vtk_arity (e_type e)) :: ns) | None => Ok [] end) = Ok l ->
    zlen l = vtk_arity (e_type e) + 1 /\ exists ks, l = WI (zlen ks) :: map WI ks).
  { intros e l Ke E. destruct (vtk_order (e_type e)) as [order|] eqn:O; [|cbn in Ke; destruct (e_type e); cbn in O; try discriminate; intuition discriminate]. apply bind_Ok in E. destruct E as (ns & En & [= <-]).
    assert (La : Z.of_nat (List.length order) = vtk_arity (e_type e)) by (destruct (e_type e); cbn in O; try discriminate; injection O as <-; reflexivity). assert (Lm := mapM_len _ _ _ En). split; [unfold zlen; cbn [List.length]; lia|].
    assert (exists ks, ns = map WI ks) as (ks & ->). { apply mapM_Forall2 in En. clear - En. induction En as [|j w l ws E _ (ks & ->)]; [exists []; reflexivity|]. apply bind_Ok in E. destruct E as (n & _ & E). apply bind_Ok in E. destruct E as (k & _ & [= <-]). exists (k :: ks). reflexivity. }
    exists ks. rewrite map_length in Lm. unfold zlen. rewrite <- La, Lm. reflexivity. }
  assert (G : forall ids cs n size, mapM (fun id => e <- t_get (m_elems m) id ;; match vtk_order (e_type e) with
    | Some order => ns <- mapM (fun j => n <- vec_at (e_nodes e) j ;; k <- t_index (m_nodes m) n ;; Ok (WI k)) order ;; Ok (WI (vtk_arity (e_type e)) :: ns) | None => Ok [] end) ids = Ok cs ->
    foldM (fun n id => e <- t_get (m_elems m) id ;; Ok (n + (vtk_arity (e_type e) + 1))) ids n = Ok size -> n + words cs = size /\ Forall (fun l => exists ks, l = WI (zlen ks) :: map WI ks) cs).
  { induction ids as [|id ids IH]; intros ls n sz Hm Hf; cbn [mapM foldM] in Hm, Hf.
    - injection Hm as <-. injection Hf as <-. split; [cbn; lia|constructor].
    - apply bind_Ok in Hm. destruct Hm as (l & Hl & Hm). apply bind_Ok in Hm. destruct Hm as (ls' & Hls & [= <-]). apply bind_Ok in Hf. destruct Hf as (n' & Hn & Hf). apply bind_Ok in Hl. destruct Hl as (e & He & Hl). rewrite He in Hn. cbn in Hn. injection Hn as <-.
      destruct (Ln e l (K id e He) Hl) as (L1 & L2). destruct (IH ls' _ sz Hls Hf) as (W & F). split; [cbn [words fold_right]; fold (words ls'); lia|now constructor]. }
  destruct (G (t_ids (m_elems m)) cs 0 size Hc Hs) as (W & F). split; [lia|exact F].
Qed.
Print Assumptions C40_cells.
(** Corners of an element in the order VTK expects them: all of them, in order, except that two corners of a tetrahedron are exchanged. *)
Definition corner_order (t : etype) : list Z :=
  match t with ET_BEAM => zrange 2 | ET_TRIANGLE => zrange 3 | ET_TETRAHEDRON => [0; 2; 1; 3] | ET_HEXAHEDRON => zrange 8 | ET_TRIANGULAR_PRISM => zrange 6 | _ => [] end.
(** If nothing was removed before (positions and indices of nodes agree), the numbers in a cell are the positions of the corners of the element in the list of points. *)
Theorem C40_corners : forall m u dofs loc file, indexed (m_nodes m) -> (forall id e, t_get (m_elems m) id = Ok e -> vtk_kind e) -> wf_table (m_nodes m) -> connected m -> vtk_save m u dofs loc = Ok file ->
  exists points cells types rest size, vtk_parts m file points cells types rest size /\
    forall n e, at_pos (m_elems m) n = Ok e -> exists ks, nth_error cells n = Some (WI (zlen ks) :: map WI ks) /\
      Forall2 (fun k j => 0 <= k < t_size (m_nodes m) /\ exists id, vec_at (e_nodes e) j = Ok id /\ at_pos (m_nodes m) (Z.to_nat k) = t_get (m_nodes m) id) ks
        (corner_order (e_type e)).
Proof.
  intros m u dofs loc file X K Wn C H. destruct (vtk_save_parts _ _ _ _ _ H) as (ps & cs & ts & d & size & P & _ & _ & Hc & _). exists ps, cs, ts, d, size. split; [exact P|]. intros n e E.
  unfold vtk_cell in Hc. rewrite mapM_positions in Hc. apply mapM_Forall2 in Hc. unfold at_pos in E. apply bind_Ok in E. destruct E as (id & Hid & He). unfold t_id in Hid. rewrite vec_at_nat in Hid. destruct (nth_error (t_ids (m_elems m)) n) as [i|] eqn:En; [|discriminate]. injection Hid as ->.
  destruct (Forall2_nth _ _ _ Hc n id En) as (l & El & Hl). rewrite He in Hl. cbn [bind] in Hl. assert (Ke := K id e He). destruct (vtk_order (e_type e)) as [order|] eqn:O; [|cbn in Ke; destruct (e_type e); cbn in O; try discriminate; intuition discriminate]. apply bind_Ok in Hl. destruct Hl as (ns & Hns & [= <-]).
  assert (La : Z.of_nat (List.length order) = vtk_arity (e_type e)) by (destruct (e_type e); cbn in O; try discriminate; injection O as <-; reflexivity). assert (Lm := mapM_len _ _ _ Hns). apply mapM_Forall2 in Hns.
  assert (G : exists ks, ns = map WI ks /\ Forall2 (fun k j => 0 <= k < t_size (m_nodes m) /\ exists id, vec_at (e_nodes e) j = Ok id /\ at_pos (m_nodes m) (Z.to_nat k) = t_get (m_nodes m) id) ks order).
  { clear La Lm O El. assert (Ce := C id e He). clear - Hns X Wn Ce. induction Hns as [|j w l ws E _ (ks & -> & F)]; [exists []; split; [reflexivity|constructor]|]. apply bind_Ok in E. destruct E as (nd & Hj & E). apply bind_Ok in E. destruct E as (k & Hk & [= <-]). exists (k :: ks). split; [reflexivity|]. constructor; [|exact F].
    assert (In nd (t_ids (m_nodes m))) as I. { apply vec_at_Ok in Hj. destruct Hj as [_ Hj]. apply nth_error_In in Hj. rewrite Forall_forall in Ce. now apply Ce. }
    apply In_nth_error in I. destruct I as (p & Ep). assert (Ip : t_id (m_nodes m) (Z.of_nat p) = Ok nd) by (unfold t_id; rewrite vec_at_nat, Ep; reflexivity). assert (Ix := proj1 X _ _ Ip). rewrite Hk in Ix. injection Ix as ->.
    split; [split; [lia|unfold t_size, zlen; assert (p < List.length (t_ids (m_nodes m)))%nat by (apply nth_error_Some; congruence); lia]|]. exists nd. split; [exact Hj|]. unfold at_pos. rewrite Nat2Z.id, Ip. reflexivity. }
  destruct G as (ks & -> & F). exists ks. split; [|replace (corner_order (e_type e)) with order; [exact F|clear - O Ke; cbn in Ke; destruct (e_type e); cbn in O; try discriminate; injection O as <-; reflexivity]]. rewrite El. rewrite map_length in Lm. unfold zlen. rewrite Lm, La. reflexivity.
Qed.
Print Assumptions C40_corners.
(** Types of cells as numbered by VTK (VTK_LINE, VTK_TRIANGLE, VTK_TETRA, VTK_HEXAHEDRON, VTK_WEDGE). *)
Definition vtk_codes : list (etype * Z) := [(ET_BEAM, 3); (ET_TRIANGLE, 5); (ET_TETRAHEDRON, 10); (ET_HEXAHEDRON, 12); (ET_TRIANGULAR_PRISM, 13)].
Theorem C40_types : forall m u dofs loc file, (forall id e, t_get (m_elems m) id = Ok e -> vtk_kind e) -> vtk_save m u dofs loc = Ok file ->
  exists points cells types rest size, vtk_parts m file points cells types rest size /\
    forall n e, at_pos (m_elems m) n = Ok e -> exists code, nth_error types n = Some [WI code] /\ In (e_type e, code) vtk_codes.
Proof.
  intros m u dofs loc file K H. destruct (vtk_save_parts _ _ _ _ _ H) as (ps & cs & ts & d & size & P & _ & _ & _ & Ht). exists ps, cs, ts, d, size. split; [exact P|]. intros n e E.
  unfold vtk_cell_type in Ht. rewrite mapM_positions in Ht. apply mapM_Forall2 in Ht. unfold at_pos in E. apply bind_Ok in E. destruct E as (id & Hid & He). unfold t_id in Hid. rewrite vec_at_nat in Hid. destruct (nth_error (t_ids (m_elems m)) n) as [i|] eqn:En; [|discriminate]. injection Hid as ->.
  destruct (Forall2_nth _ _ _ Ht n id En) as (l & El & Hl). rewrite He in Hl. cbn [bind] in Hl. injection Hl as <-. exists (vtk_type (e_type e)). split; [exact El|]. assert (Ke := K id e He). cbn in Ke. destruct Ke as [<-|[<-|[<-|[<-|[<-|[]]]]]]; cbn; tauto.
Qed.
Print Assumptions C40_types.
(** A nodal field with one unknown per node: after the cells the values of the field, one per line, in order. *)
Theorem C40_values : forall m u file, u <> [] -> List.length u = List.length (t_ids (m_nodes m)) -> vtk_save m u 1 DL_NODE = Ok file ->
  exists before, file = before ++ [[WS "POINT_DATA"; WI (zlen u)]; [WS "SCALARS"; WS "fixed"; WS "float"]; [WS "LOOKUP_TABLE"; WS "default"]] ++ map (fun x => [WD 16 x]) u.
Proof.
  intros m u file Hu L H. unfold vtk_save in H. apply bind_Ok in H. destruct H as (ps & _ & H). apply bind_Ok in H. destruct H as (size & _ & H). apply bind_Ok in H. destruct H as (cs & _ & H). apply bind_Ok in H. destruct H as (ts & _ & H). apply bind_Ok in H. destruct H as (d & Hd & H).
  injection H as <-. destruct u as [|x0 u0] eqn:Eu; [contradiction|]. rewrite <- Eu in *. apply bind_Ok in Hd. destruct Hd as (rows & Hr & Hd). injection Hd as <-.
  assert (Er : List.concat rows = map (fun x => [WD 16 x]) u).
  { assert (G : forall k suf rows, skipn k u = suf -> mapM (vtk_data m u 1) (map Z.of_nat (seq k (List.length suf))) = Ok rows -> List.concat rows = map (fun x => [WD 16 x]) suf).
    { intros k suf. revert k. induction suf as [|x suf IH]; intros k r E M; cbn [List.length seq map mapM] in M; [injection M as <-; reflexivity|].
      apply bind_Ok in M. destruct M as (l & Hl & M). apply bind_Ok in M. destruct M as (ls & Hls & M). injection M as <-. unfold vtk_data in Hl. apply bind_Ok in Hl. destruct Hl as (j & _ & Hl). cbn [Z.eqb Pos.eqb] in Hl. apply bind_Ok in Hl. destruct Hl as (v & Hv & Hl). injection Hl as <-.
      assert (Ek : nth_error u k = Some x) by (rewrite <- (firstn_skipn k u), E; assert (Lk : List.length (firstn k u) = k) by (rewrite firstn_length, Nat.min_l; [reflexivity|]; assert (Q := f_equal (@List.length Q) E); rewrite skipn_length in Q; cbn in Q; lia); rewrite nth_error_app2 by lia; rewrite Lk, Nat.sub_diag; reflexivity).
      unfold vec_get in Hv. destruct (Z.ltb_spec (Z.of_nat k) 0); [lia|]. rewrite Nat2Z.id, Ek in Hv. injection Hv as ->. cbn [List.concat map app]. f_equal. apply (IH (Datatypes.S k)); [|exact Hls]. replace (Datatypes.S k) with (k + 1)%nat by lia. clear - E. revert u E. induction k as [|k IHk]; intros [|y u] E; cbn in *; try discriminate; [congruence|]. now apply IHk. }
    apply (G 0%nat u rows eq_refl). rewrite L. unfold positions, zrange, t_size, zlen in Hr. rewrite Nat2Z.id in Hr. exact Hr. }
  rewrite Er. replace (t_size (m_nodes m)) with (zlen u) by (unfold t_size, zlen; now rewrite L).
  exists ([[WS "#"; WS "vtk"; WS "DataFile"; WS "Version"; WS "2.0"]; [WS "."]; [WS "ASCII"]; [WS "DATASET"; WS "UNSTRUCTURED_GRID"]; [WS "POINTS"; WI (zlen u); WS "float"]] ++ ps ++ [[WS "CELLS"; WI (t_size (m_elems m)); WI size]] ++ cs ++
      [[WS "CELL_TYPES"; WI (t_size (m_elems m))]] ++ ts). rewrite <- !app_assoc. reflexivity.
Qed.
Print Assumptions C40_values.
Definition tri_mesh : mesh := Mesh (t_add (t_add (t_add t_empty 4 (Coord 0 0 0)) 2 (Coord 1 0 0)) 9 (Coord 0 1 0)) t_empty (t_add t_empty 1 (Element ET_TRIANGLE [4; 2; 9] [])).
Example C40_case : exists file, vtk_save tri_mesh [] 1 DL_NODE = Ok file /\ nth_error file 8 = Some [WS "CELLS"; WI 1; WI 4] /\ nth_error file 9 = Some [WI 3; WI 0; WI 1; WI 2].
Proof. eexists. split; [vm_compute; reflexivity|]. split; reflexivity. Qed.
(** A quadrilateral is announced with five words and written as an empty line. *)
Theorem C40_quadrilateral_refuted : exists m points cells types rest size file, wf_table (m_nodes m) /\ indexed (m_nodes m) /\ connected m /\ whole m /\ vtk_save m [] 1 DL_NODE = Ok file /\
  vtk_parts m file points cells types rest size /\ size = 5 /\ words cells = 0.
Proof.
  set (ns := [Add 0 (Coord 0 0 0); Add 1 (Coord 1 0 0); Add 2 (Coord 1 1 0); Add 3 (Coord 0 1 0)] : list (op coord)).
  set (m := Mesh (match run ns with Ok t => t | _ => t_empty end) t_empty (t_add t_empty 0 (Element ET_QUADRILATERAL [0; 1; 2; 3] []))).
  destruct (run_repr ns) as (t & R & P); [cbn; intuition discriminate|]. assert (Et : m_nodes m = t) by (unfold m; rewrite R; reflexivity).
  assert (G : forall id e, t_get (m_elems m) id = Ok e -> e = Element ET_QUADRILATERAL [0; 1; 2; 3] []).
  { intros id e H. apply zat_Ok in H. cbn in H. repeat match type of H with context [if ?b then _ else _] => destruct b | context [match ?b with _ => _ end] => destruct b end; try discriminate; now injection H as <-. }
  eexists m, [_; _; _; _], [_], [_], [], 5, _. split; [rewrite Et; now apply (repr_wf t (ledger ns))|]. split.
  { split; [|].
    - intros i id H. rewrite Et in *. unfold t_id in H. apply vec_at_Ok in H. destruct H as [H0 H]. rewrite (r_ids _ _ P) in H. cbn in H.
      assert (Hi : nth_error (ledger ns) (Z.to_nat i) = Some (Entry id (match nth_error [Coord 0 0 0; Coord 1 0 0; Coord 1 1 0; Coord 0 1 0] (Z.to_nat i) with Some c => c | None => Coord 0 0 0 end) true)).
      { destruct (Z.to_nat i) as [|[|[|[|k]]]]; cbn in H |- *; try (injection H as <-; reflexivity). destruct k; discriminate. }
      rewrite (repr_index t _ _ _ _ P Hi). f_equal. lia.
    - intros id N. rewrite Et in *. apply (repr_absent t (ledger ns) id P). unfold present. now rewrite <- (r_ids _ _ P). }
  split; [intros id e H; rewrite (G id e H); repeat (apply Forall_cons; [cbn; auto|]); apply Forall_nil|]. split; [intros id e H k A; rewrite (G id e H) in *; cbn in *; congruence|].
  split; [vm_compute; reflexivity|]. split; [split; [reflexivity|repeat split; reflexivity]|]. split; reflexivity.
Qed.
Print Assumptions C40_quadrilateral_refuted.
(** After a node has been removed the numbers in the cells no longer are positions in the list of points: here a beam between the two points written refers to point 2. *)
Theorem C40_removed_refuted : exists m points types rest size file, built (m_nodes m) /\ built (m_elems m) /\ connected m /\ t_size (m_nodes m) = 2 /\ vtk_save m [] 1 DL_NODE = Ok file /\
  vtk_parts m file points [[WI 2; WI 1; WI 2]] types rest size.
Proof.
  set (ns := [Add 0 (Coord 0 0 0); Add 1 (Coord 1 0 0); Add 2 (Coord 2 0 0); Remove 0] : list (op coord)).
  set (m := Mesh (match run ns with Ok t => t | _ => t_empty end) t_empty (t_add t_empty 0 (Element ET_BEAM [1; 2] []))).
  eexists m, [_; _], [_], [], _, _. split; [exists ns; split; [cbn; intuition discriminate|reflexivity]|]. split; [exists [Add 0 (Element ET_BEAM [1; 2] [])]; split; [cbn; tauto|reflexivity]|].
  split; [|split; [reflexivity|split; [vm_compute; reflexivity|split; [reflexivity|repeat split; reflexivity]]]].
  intros id e H. apply zat_Ok in H. cbn in H. repeat match type of H with context [if ?b then _ else _] => destruct b | context [match ?b with _ => _ end] => destruct b end; try discriminate; injection H as <-; repeat (apply Forall_cons; [cbn; auto|]); apply Forall_nil.
Qed.
Print Assumptions C40_removed_refuted.
(** All coordinates are written with 16 digits except the first of the file, which gets 6. *)
Theorem C40_digits : forall m u dofs loc file ns, lists (m_nodes m) ns -> vtk_save m u dofs loc = Ok file ->
  exists points cells types rest size, vtk_parts m file points cells types rest size /\
    forall n c, nth_error ns n = Some c -> nth_error points n = Some [WD (if (n =? 0)%nat then 6 else 16) (cx c); WD 16 (cy c); WD 16 (cz c)].
Proof.
  intros m u dofs loc file ns [L N] H. destruct (vtk_save_parts _ _ _ _ _ H) as (ps & cs & ts & d & size & P & _ & Hp & _). exists ps, cs, ts, d, size. split; [exact P|]. intros n c E. specialize (N n c E). unfold at_pos in N. apply bind_Ok in N. destruct N as (id & Hid & Hc).
  apply mapM_Forall2 in Hp. assert (En : nth_error (positions (m_nodes m)) n = Some (Z.of_nat n)).
  { unfold positions, zrange. rewrite nth_error_map. assert (n < Z.to_nat (t_size (m_nodes m)))%nat by (rewrite L; unfold zlen; rewrite Nat2Z.id; apply nth_error_Some; congruence).
    assert (E2 : nth_error (seq 0 (Z.to_nat (t_size (m_nodes m)))) n = Some n) by (rewrite (nth_error_nth' _ 0%nat) by (now rewrite seq_length); f_equal; now apply seq_nth). now rewrite E2. }
  destruct (Forall2_nth _ _ _ Hp n _ En) as (l & El & Hl). rewrite El. unfold vtk_point in Hl. rewrite Hid in Hl. cbn [bind] in Hl. rewrite Hc in Hl. cbn [bind] in Hl. injection Hl as <-. destruct n; [reflexivity|]. reflexivity.
Qed.
Print Assumptions C40_digits.

(** ** Gnuplot *)
(** On a mesh whose node ids are 0, 1, 2, ... in order, line [n] holds the coordinates of node [n] and its value. *)
Theorem C78_rows : forall m u ns, t_ids (m_nodes m) = zrange (List.length ns) -> indexed (m_nodes m) -> lists (m_nodes m) ns -> List.length u = List.length ns ->
  exists header rows, gnuplot_save m u = Ok (header :: rows) /\ List.length rows = List.length ns /\
    forall n c x, nth_error ns n = Some c -> nth_error u n = Some x -> nth_error rows n = Some [WI (Z.of_nat n + 1); WD 16 (cx c); WD 16 (cy c); WD 16 (cz c); WD 16 x].
Proof.
  intros m u ns Ei [X _] [L N] Lu. assert (Row : forall n c x, nth_error ns n = Some c -> nth_error u n = Some x -> gnuplot_row m u (Z.of_nat n) = Ok [WI (Z.of_nat n + 1); WD 16 (cx c); WD 16 (cy c); WD 16 (cz c); WD 16 x]).
  { intros n c x Hc Hx. specialize (N n c Hc). unfold at_pos in N. apply bind_Ok in N. destruct N as (id & Hid & Hg). assert (Hk := X _ _ Hid).
    assert (id = Z.of_nat n). { unfold t_id in Hid. rewrite Ei, vec_at_nat in Hid. unfold zrange in Hid. rewrite nth_error_map in Hid. assert (n < List.length ns)%nat by (apply nth_error_Some; congruence). rewrite (nth_error_nth' _ 0%nat) in Hid by (now rewrite seq_length). rewrite seq_nth in Hid by assumption. cbn in Hid. congruence. } subst id.
    unfold gnuplot_row. rewrite Hk. cbn [bind]. rewrite Hg. cbn [bind]. unfold vec_get. destruct (Z.ltb_spec (Z.of_nat n) 0); [lia|]. rewrite Nat2Z.id, Hx. reflexivity. }
  assert (M : exists rows, mapM (gnuplot_row m u) (positions (m_nodes m)) = Ok rows).
  { assert (G : forall l, (forall i, In i l -> exists n, i = Z.of_nat n /\ (n < List.length ns)%nat) -> exists rows, mapM (gnuplot_row m u) l = Ok rows).
    { induction l as [|i l IH]; intros H; [exists []; reflexivity|]. destruct IH as (rows & E); [intros; apply H; now right|]. destruct (H i (or_introl eq_refl)) as (n & -> & Hn). destruct (nth_error ns n) as [c|] eqn:Hc; [|apply nth_error_None in Hc; lia]. destruct (nth_error u n) as [x|] eqn:Hx; [|apply nth_error_None in Hx; lia].
      eexists. cbn [mapM]. rewrite (Row n c x Hc Hx). cbn [bind]. rewrite E. reflexivity. }
    apply G. intros i I. unfold positions, zrange in I. apply in_map_iff in I. destruct I as (n & <- & I). apply in_seq in I. exists n. split; [reflexivity|]. rewrite L in I. unfold zlen in I. rewrite Nat2Z.id in I. lia. }
  destruct M as (rows & M). eexists _, rows. split; [unfold gnuplot_save; rewrite M; reflexivity|]. assert (Lr : List.length rows = List.length ns). { rewrite (mapM_len _ _ _ M). unfold positions, zrange. rewrite map_length, seq_length, L. unfold zlen. now rewrite Nat2Z.id. } split; [exact Lr|].
  intros n c x Hc Hx. apply mapM_Forall2 in M. assert (En : nth_error (positions (m_nodes m)) n = Some (Z.of_nat n)).
  { unfold positions, zrange. rewrite nth_error_map. assert (n < Z.to_nat (t_size (m_nodes m)))%nat by (rewrite L; unfold zlen; rewrite Nat2Z.id; apply nth_error_Some; congruence).
    assert (E2 : nth_error (seq 0 (Z.to_nat (t_size (m_nodes m)))) n = Some n) by (rewrite (nth_error_nth' _ 0%nat) by (now rewrite seq_length); f_equal; now apply seq_nth). now rewrite E2. }
  destruct (Forall2_nth _ _ _ M n _ En) as (l & El & Hl). rewrite El. rewrite (Row n c x Hc Hx) in Hl. now injection Hl as <-.
Qed.
Print Assumptions C78_rows.
Example C78_case : gnuplot_save (Mesh (t_add (t_add t_empty 0 (Coord 1 2 3)) 1 (Coord 4 5 6)) t_empty t_empty) [7; 8]%Q =
  Ok [[WS "#"; WS "id"; WS "x"; WS "y"; WS "z"; WS "u"]; [WI 1; WD 16 1; WD 16 2; WD 16 3; WD 16 7]; [WI 2; WD 16 4; WD 16 5; WD 16 6; WD 16 8]].
Proof. reflexivity. Qed.
(** With ids 1, 2, 0 in this order the lines pair the value of one node with the place of another: the first value appears at the second node. *)
Theorem C78_ids_refuted : exists m u c x rows header, built (m_nodes m) /\ lists (m_nodes m) c /\ gnuplot_save m u = Ok (header :: rows) /\ nth_error u 0 = Some x /\
  nth_error rows 0 = Some [WI 3; WD 16 (cx (nth 1 c vzero)); WD 16 (cy (nth 1 c vzero)); WD 16 (cz (nth 1 c vzero)); WD 16 x] /\ nth 1 c vzero <> nth 0 c vzero.
Proof.
  set (ns := [Add 1 (Coord 0 0 0); Add 2 (Coord 1 0 0); Add 0 (Coord 2 0 0)] : list (op coord)). set (m := Mesh (match run ns with Ok t => t | _ => t_empty end) t_empty t_empty).
  eexists m, [10; 11; 12]%Q, [Coord 0 0 0; Coord 1 0 0; Coord 2 0 0], _, _, _. split; [exists ns; split; [cbn; intuition discriminate|reflexivity]|]. split.
  - split; [reflexivity|]. intros [|[|[|n]]] v E; cbn in E; try (injection E as <-; reflexivity). destruct n; discriminate.
  - split; [vm_compute; reflexivity|]. split; [reflexivity|]. split; [reflexivity|]. cbn. discriminate.
Qed.
Print Assumptions C78_ids_refuted.

(** Proofs about turning a surface into a mesh: the walk around a vertex. *)
From Coq Require Import ZArith List Bool QArith Lia Lqa.
From Verif Require Import Prelude Vec ZMap HashGrid_Model Mesh_Model Mesh_Proofs Surf_Model Surf_Spec Surf_Proofs Split_Proofs.
Import ListNotations.
Open Scope Z_scope.
Ltac Zify.zify_post_hook ::= Z.div_mod_to_equations.

(** ** Tables of triangles *)
Definition tris (ids : list Z) (t : table element) : Prop :=
  t_ids t = ids /\ forall id, In id ids -> exists a b c, zlookup id (t_map t) = Some (Element ET_TRIANGLE [a; b; c] []).
Definition label (t : table element) (id j : Z) : Z := match zlookup id (t_map t) with Some e => nth (Z.to_nat (j mod 3)) (e_nodes e) 0 | None => 0 end.
Lemma label_mod t id j j' : j mod 3 = j' mod 3 -> label t id j = label t id j'.
Proof. intros E. unfold label. now rewrite E. Qed.
Lemma set_label ids t fac p n : tris ids t -> In fac ids -> 0 <= p < 3 ->
  exists e l, t_get t fac = Ok e /\ vec_set (e_nodes e) p n = Ok l /\ tris ids (t_set t fac (set_e_nodes e l)) /\
    forall y u, label (t_set t fac (set_e_nodes e l)) y u = if he fac p y u then n else label t y u.
Proof.
  intros [Ei Et] Hf Hp. destruct (Et fac Hf) as (a & b & c & E). exists (Element ET_TRIANGLE [a; b; c] []). eexists. split; [unfold t_get, zat; now rewrite E|]. cbn [e_nodes].
  split; [unfold vec_set, zlen; cbn [length]; destruct (Z.ltb_spec p 0); [lia|]; destruct (Z.ltb_spec p (Z.of_nat 3)); [reflexivity|lia]|]. split.
  - split; [exact Ei|]. intros id Hid. cbn [t_set t_map]. rewrite zlookup_insert. destruct (Z.eqb_spec id fac) as [->|]; [|now apply Et]. assert (Hc : p = 0 \/ p = 1 \/ p = 2) by lia. unfold set_e_nodes. cbn [e_type e_faces]. destruct Hc as [->|[->| ->]]; cbn; do 3 eexists; reflexivity.
  - intros y u. unfold label, he. cbn [t_set t_map]. rewrite zlookup_insert. rewrite (Z.eqb_sym fac y). destruct (Z.eqb_spec y fac) as [->|]; cbn [andb]; [|reflexivity]. rewrite E. cbn [e_nodes set_e_nodes]. assert (Hc : p = 0 \/ p = 1 \/ p = 2) by lia.
    destruct (tget_cases u) as [M|[M|M]]; rewrite M; destruct Hc as [->|[->| ->]]; reflexivity.
Qed.
Lemma label_at ids t id j : tris ids t -> In id ids -> 0 <= j < 3 -> exists e, t_get t id = Ok e /\ vec_at (e_nodes e) j = Ok (label t id j).
Proof.
  intros [_ Et] Hi Hj. destruct (Et id Hi) as (a & b & c & E). exists (Element ET_TRIANGLE [a; b; c] []). split; [unfold t_get, zat; now rewrite E|]. unfold label. rewrite E. cbn [e_nodes]. assert (Hc : j = 0 \/ j = 1 \/ j = 2) by lia. destruct Hc as [->|[->| ->]]; reflexivity.
Qed.
Lemma fold_tris l : forall t, let t' := fold_left (fun t id => t_add t id (Element ET_TRIANGLE [int_max; int_max; int_max] [])) l t in
  t_ids t' = t_ids t ++ l /\ (forall id, In id l \/ zlookup id (t_map t) = Some (Element ET_TRIANGLE [int_max; int_max; int_max] []) -> zlookup id (t_map t') = Some (Element ET_TRIANGLE [int_max; int_max; int_max] [])).
Proof.
  induction l as [|x l IH]; intros t; cbn [fold_left].
  - split; [now rewrite app_nil_r|]. intros id [[]|H]. exact H.
  - cbv zeta in IH |- *. destruct (IH (t_add t x (Element ET_TRIANGLE [int_max; int_max; int_max] []))) as [A B]. split; [rewrite A; cbn [t_ids t_add]; now rewrite <- app_assoc|]. intros id H. apply B. cbn [t_add t_map]. rewrite zlookup_insert. destruct (Z.eqb_spec id x) as [->|N]; [now right|]. destruct H as [[E|H]|H]; [congruence|now left|now right].
Qed.

(** ** Corners around a vertex *)
Definition ahead (s : surf) (c : Z * Z) : option (Z * Z) := if across s (fst c) (snd c + 2) =? -1 then None else Some (across s (fst c) (snd c + 2), (apart s (fst c) (snd c + 2) + 1) mod 3).
Definition behind (s : surf) (c : Z * Z) : option (Z * Z) := if across s (fst c) (snd c) =? -1 then None else Some (across s (fst c) (snd c), (apart s (fst c) (snd c) + 2) mod 3).
Definition point (s : surf) (c : Z * Z) : coord := corner s (fst c) (snd c).
Definition proper (s : surf) (c : Z * Z) : Prop := In (fst c) (u_ids s) /\ 0 <= snd c < 3.
Lemma ahead_linked s c : glued s -> proper s c ->
  (ahead s c = None /\ across s (fst c) (snd c + 2) = -1) \/ exists b l, linked s (fst c) (snd c + 2) b l /\ opposite s (fst c) (snd c + 2) b l /\ ahead s c = Some (b, l mod 3) /\ 0 <= b.
Proof.
  intros G [Hi Hj]. destruct (proj2 G (fst c) (snd c + 2) Hi) as [[F1 F2]|(b & l & L & O)]; [left; split; [unfold ahead; now rewrite F1|exact F1]|]. right. exists b, l. split; [exact L|]. split; [exact O|]. assert (0 <= b) by (apply G; apply L). split; [|assumption]. unfold ahead. destruct L as (_ & _ & E1 & E2 & _). rewrite E1, E2. destruct (Z.eqb_spec b (-1)); [lia|]. f_equal. f_equal. lia.
Qed.
Lemma behind_linked s c : glued s -> proper s c ->
  (behind s c = None /\ across s (fst c) (snd c) = -1) \/ exists b l, linked s (fst c) (snd c) b l /\ opposite s (fst c) (snd c) b l /\ behind s c = Some (b, (l + 1) mod 3) /\ 0 <= b.
Proof.
  intros G [Hi Hj]. destruct (proj2 G (fst c) (snd c) Hi) as [[F1 F2]|(b & l & L & O)]; [left; split; [unfold behind; now rewrite F1|exact F1]|]. right. exists b, l. split; [exact L|]. split; [exact O|]. assert (0 <= b) by (apply G; apply L). split; [|assumption]. unfold behind. destruct L as (_ & _ & E1 & E2 & _). rewrite E1, E2. destruct (Z.eqb_spec b (-1)); [lia|]. f_equal. f_equal. lia.
Qed.
Lemma ahead_behind s c d : glued s -> proper s c -> ahead s c = Some d -> proper s d /\ behind s d = Some c /\ point s d =v= point s c /\ fst d <> fst c.
Proof.
  intros G P E. destruct (ahead_linked s c G P) as [[E' _]|(b & l & L & O & E' & Hb)]; rewrite E' in E; [discriminate|]. injection E as <-. destruct L as (L1 & L2 & L3 & L4 & L5 & L6), P as [P1 P2]. unfold point. cbn [fst snd]. split; [split; [exact L1|cbn; lia]|]. split.
  - unfold behind. cbn [fst snd]. rewrite (across_mod s b (l mod 3) l), (apart_mod s b (l mod 3) l), L5, L6 by lia. assert (0 <= fst c) by (apply G; exact P1). destruct (Z.eqb_spec (fst c) (-1)); [lia|]. f_equal. destruct c as [c1 c2]. cbn in *. f_equal. lia.
  - split; [|exact L2]. destruct O as [O1 _]. rewrite (corner_mod s b (l mod 3) l) by lia. rewrite O1. rewrite (corner_mod s (fst c) (snd c + 2 + 1) (snd c)) by lia. reflexivity.
Qed.
Lemma behind_ahead s c d : glued s -> proper s c -> behind s c = Some d -> proper s d /\ ahead s d = Some c /\ point s d =v= point s c /\ fst d <> fst c.
Proof.
  intros G P E. destruct (behind_linked s c G P) as [[E' _]|(b & l & L & O & E' & Hb)]; rewrite E' in E; [discriminate|]. injection E as <-. destruct L as (L1 & L2 & L3 & L4 & L5 & L6), P as [P1 P2]. unfold point. cbn [fst snd]. split; [split; [exact L1|cbn; lia]|]. split.
  - unfold ahead. cbn [fst snd]. rewrite (across_mod s b ((l + 1) mod 3 + 2) l), (apart_mod s b ((l + 1) mod 3 + 2) l), L5, L6 by lia. assert (0 <= fst c) by (apply G; exact P1). destruct (Z.eqb_spec (fst c) (-1)); [lia|]. f_equal. destruct c as [c1 c2]. cbn in *. f_equal. lia.
  - split; [|exact L2]. destruct O as [_ O2]. rewrite (corner_mod s b ((l + 1) mod 3) (l + 1)) by lia. exact O2.
Qed.

(** ** One step of the walk *)
Definition way (back : bool) (s : surf) (c : Z * Z) : option (Z * Z) := if back then behind s c else ahead s c.
Definition vnot (back : bool) (p : Z) : Z := if back then (p + 1) mod 3 else (p + 2) mod 3.
Lemma walk_step s k first j node back rev c t : glued s -> proper s c -> tris (u_ids s) t ->
  exists t', tris (u_ids s) t' /\ (forall y u, label t' y u = if he (fst c) (snd c) y u then node else label t y u) /\
    walk (S k) s first j node back rev (fst c) (vnot back (snd c)) t =
    match way back s c with
    | None => if rev then Ok t' else walk k s first j node true true first ((j + 1) mod 3) t'
    | Some d => if fst d =? first then Ok t' else walk k s first j node back rev (fst d) (vnot back (snd d)) t'
    end.
Proof.
  intros G P T. destruct (set_label _ t (fst c) (snd c) node T (proj1 P) (proj2 P)) as (e & l & E1 & E2 & T' & Lb). exists (t_set t (fst c) (set_e_nodes e l)). split; [exact T'|]. split; [exact Lb|]. destruct P as [P1 P2]. cbn [walk]. destruct back; cbn [vnot way].
  - destruct (Z.ltb_spec 2 ((snd c + 1) mod 3)); [lia|]. replace (((snd c + 1) mod 3 + 2) mod 3) with (snd c) by lia. rewrite E1. cbn [bind]. rewrite E2. cbn [bind]. rewrite (u_get_stored s (fst c) (well_stored_in s _ (proj1 G) P1)). cbn [bind]. destruct (Z.ltb_spec (snd c) 0); [lia|]. change (tget (sf_nb (facet s (fst c))) (snd c)) with (across s (fst c) (snd c)). change (tget (sf_vn (facet s (fst c))) (snd c)) with (apart s (fst c) (snd c)).
    destruct (behind_linked s c G (conj P1 P2)) as [[B A]|(b & m & L & O & B & Hb)]; rewrite B; [rewrite A; reflexivity|]. cbn [fst snd]. destruct L as (_ & _ & L3 & L4 & _). rewrite L3, L4. destruct (Z.eqb_spec b (-1)); [lia|]. replace (((m + 1) mod 3 + 1) mod 3) with ((m + 2) mod 3) by lia. reflexivity.
  - destruct (Z.ltb_spec 2 ((snd c + 2) mod 3)); [lia|]. replace (((snd c + 2) mod 3 + 1) mod 3) with (snd c) by lia. rewrite E1. cbn [bind]. rewrite E2. cbn [bind]. rewrite (u_get_stored s (fst c) (well_stored_in s _ (proj1 G) P1)). cbn [bind]. destruct (Z.ltb_spec ((snd c + 2) mod 3) 0); [lia|]. change (tget (sf_nb (facet s (fst c))) ((snd c + 2) mod 3)) with (across s (fst c) ((snd c + 2) mod 3)). change (tget (sf_vn (facet s (fst c))) ((snd c + 2) mod 3)) with (apart s (fst c) ((snd c + 2) mod 3)). rewrite (across_mod s _ ((snd c + 2) mod 3) (snd c + 2)), (apart_mod s _ ((snd c + 2) mod 3) (snd c + 2)) by lia.
    destruct (ahead_linked s c G (conj P1 P2)) as [[B A]|(b & m & L & O & B & Hb)]; rewrite B; [rewrite A; reflexivity|]. cbn [fst snd]. destruct L as (_ & _ & L3 & L4 & _). rewrite L3, L4. destruct (Z.eqb_spec b (-1)); [lia|]. replace ((m mod 3 + 2) mod 3) with ((m + 2) mod 3) by lia. reflexivity.
Qed.
Lemma way_ok back s c d : glued s -> proper s c -> way back s c = Some d -> proper s d /\ way (negb back) s d = Some c /\ point s d =v= point s c /\ fst d <> fst c.
Proof. destruct back; [apply behind_ahead|apply ahead_behind]. Qed.

(** ** The nodes given out lie at the point *)
Lemma walk_ok s first j node : glued s -> proper s (first, j) -> forall k back rev c t, proper s c -> point s c =v= corner s first j -> tris (u_ids s) t ->
  exists t', walk k s first j node back rev (fst c) (vnot back (snd c)) t = Ok t' /\ tris (u_ids s) t' /\ (forall y u, label t' y u = label t y u \/ label t' y u = node /\ corner s y u =v= corner s first j) /\ (k <> O -> label t' (fst c) (snd c) = node).
Proof.
  intros G Pf. induction k as [|k IH]; intros back rev c t P Pc T; [exists t; split; [reflexivity|]; split; [exact T|]; split; [intros; now left|contradiction]|].
  destruct (walk_step s k first j node back rev c t G P T) as (t1 & T1 & Lb & W). rewrite W. clear W.
  assert (L1 : forall y u, label t1 y u = label t y u \/ label t1 y u = node /\ corner s y u =v= corner s first j). { intros y u. rewrite Lb. destruct (he (fst c) (snd c) y u) eqn:E; [right|now left]. split; [reflexivity|]. apply he_spec in E. destruct E as [<- E]. rewrite <- Pc. unfold point. rewrite (corner_mod s (fst c) u (snd c)) by lia. reflexivity. }
  assert (Lc : label t1 (fst c) (snd c) = node) by (rewrite Lb, (proj2 (he_spec _ _ _ _)) by auto; reflexivity).
  assert (Go : forall back' rev' c', proper s c' -> point s c' =v= corner s first j -> exists t', walk k s first j node back' rev' (fst c') (vnot back' (snd c')) t1 = Ok t' /\ tris (u_ids s) t' /\ (forall y u, label t' y u = label t y u \/ label t' y u = node /\ corner s y u =v= corner s first j) /\ (S k <> O -> label t' (fst c) (snd c) = node)).
  { intros back' rev' c' P' Pc'. destruct (IH back' rev' c' t1 P' Pc' T1) as (t' & R & T' & L' & _). exists t'. split; [exact R|]. split; [exact T'|]. split; [|intros _; destruct (L' (fst c) (snd c)) as [->|[-> _]]; [exact Lc|reflexivity]]. intros y u. destruct (L' y u) as [->|H]; [apply L1|now right]. }
  destruct (way back s c) as [d|] eqn:E.
  - destruct (way_ok back s c d G P E) as (Pd & _ & Ed & _). destruct (Z.eqb_spec (fst d) first); [exists t1; auto|]. apply Go; [exact Pd|]. now rewrite Ed.
  - destruct rev; [exists t1; auto|]. apply (Go true true (first, j)); [exact Pf|reflexivity].
Qed.

(** ** All corners around the vertex get the node *)
Definition spots (s : surf) : list (Z * Z) := flat_map (fun id => [(id, 0); (id, 1); (id, 2)]) (u_ids s).
Definition corners_at (s : surf) (p : coord) : list (Z * Z) := filter (fun c => Qsame (point s c) p) (spots s).
Definition simple (s : surf) : Prop := forall id k l, In id (u_ids s) -> corner s id k =v= corner s id l -> k mod 3 = l mod 3.
Definition marks (t0 t : table element) (node : Z) (V : list (Z * Z)) : Prop :=
  forall y u, (In (y, u mod 3) V -> label t y u = node) /\ (~ In (y, u mod 3) V -> label t y u = label t0 y u).
Definition closed (s : surf) (V : list (Z * Z)) : Prop := forall x y, In x V -> (ahead s x = Some y -> In y V) /\ (behind s x = Some y -> In y V).
Definition about (s : surf) (p : coord) (Q : Z * Z -> Prop) (V : list (Z * Z)) : Prop := forall x, In x V -> proper s x /\ point s x =v= p /\ Q x.
(** A property which passes from corner to corner around a vertex. *)
Definition passing (s : surf) (Q : Z * Z -> Prop) : Prop := forall x y, proper s x -> Q x -> ahead s x = Some y \/ behind s x = Some y -> Q y.
Lemma pair_dec (a b : Z * Z) : {a = b} + {a <> b}.
Proof. decide equality; apply Z.eq_dec. Qed.
Lemma about_length s p Q V : about s p Q V -> NoDup V -> (length V <= length (corners_at s p))%nat.
Proof.
  intros A N. apply NoDup_incl_length; [exact N|]. intros x Hx. destruct (A x Hx) as ([P1 P2] & P3 & _). apply filter_In. split; [|now apply Qsame_spec]. apply in_flat_map. exists (fst x). split; [exact P1|]. destruct x as [a j]. cbn in *. assert (Hc : j = 0 \/ j = 1 \/ j = 2) by lia. destruct Hc as [->|[->| ->]]; auto.
Qed.
Lemma marks_add s t0 t t1 node V c : proper s c -> marks t0 t node V -> (forall y u, label t1 y u = if he (fst c) (snd c) y u then node else label t y u) -> forall V', (forall x, In x V' <-> x = c \/ In x V) -> marks t0 t1 node V'.
Proof.
  intros [P1 P2] M L V' E y u. rewrite L. specialize (M y u). rewrite E. assert (Hc : he (fst c) (snd c) y u = true <-> (y, u mod 3) = c). { rewrite he_spec. destruct c as [a j]. cbn in *. split; [intros [<- H]; f_equal; lia|intros H; injection H as <- <-; split; [reflexivity|lia]]. }
  destruct (he (fst c) (snd c) y u).
  - split; [reflexivity|]. intros H. exfalso. apply H. left. now apply Hc.
  - assert (N : (y, u mod 3) <> c) by (intros H; apply Hc in H; discriminate). split; [intros [H|H]; [contradiction|now apply M]|intros H; apply M; tauto].
Qed.
Section Around.
  Variables (s : surf) (first j node : Z) (t0 : table element) (bound : nat) (Q : Z * Z -> Prop).
  Hypothesis Ps : passing s Q.
  Hypothesis G : glued s.
  Hypothesis Sm : simple s.
  Hypothesis Pf : proper s (first, j).
  Hypothesis Bd : (length (corners_at s (corner s first j)) <= bound)%nat.
  Let p := corner s first j.
  Lemma back_to_first d : proper s d -> point s d =v= p -> fst d = first -> d = (first, j).
  Proof using Sm Pf.
    clear Bd Ps. intros [D1 D2] D3 D4. destruct d as [a u], Pf as [F1 F2]. cbn in *. subst a. f_equal. unfold point, p in D3. cbn in D3. apply Sm in D3; [lia|exact D1].
  Qed.
  Lemma walk_back : forall k c V t, proper s c -> point s c =v= p -> Q c -> tris (u_ids s) t -> NoDup V -> about s p Q V -> In (first, j) V -> marks t0 t node V ->
    (forall x y, x = c \/ In x V -> ahead s x = Some y -> In y V) -> (forall x y, In x V -> x <> c -> behind s x = Some y -> y = c \/ In y V) -> (forall x, In x V -> ahead s x <> Some c) ->
    (bound <= length V + k)%nat -> (In c V -> (bound < length V + k)%nat) ->
    exists t' V', walk k s first j node true true (fst c) (vnot true (snd c)) t = Ok t' /\ tris (u_ids s) t' /\ marks t0 t' node V' /\ about s p Q V' /\ closed s V' /\ In (first, j) V'.
  Proof using G Sm Pf Bd Ps.
    induction k as [|k IH]; intros c V t Pc Ec Qc T Nd Ab If Mk A1 A2 A3 F1 F2.
    - exfalso. assert (Q1 := about_length s p Q V Ab Nd). destruct (in_dec pair_dec c V) as [Hc|Hc]; [specialize (F2 Hc); fold p in Bd; lia|]. assert (Q2 := about_length s p Q (c :: V)). cbn [length] in Q2. fold p in Bd. enough (Datatypes.S (length V) <= length (corners_at s p))%nat by lia. apply Q2; [intros x [<-|Hx]; [auto|now apply Ab]|now constructor].
    - assert (Hv : exists V1, NoDup V1 /\ (forall x, In x V1 <-> x = c \/ In x V) /\ (bound <= length V1 + k)%nat).
      { destruct (in_dec pair_dec c V) as [Hc|Hc]; [exists V; split; [exact Nd|]; split; [intros x; split; [now right|intros [->|H]; assumption]|specialize (F2 Hc); lia]|]. exists (c :: V). split; [now constructor|]. split; [intros x; split; [intros [<-|H]; auto|intros [->|H]; [now left|now right]]|cbn [length]; lia]. }
      destruct Hv as (V1 & N1 & E1 & B1). destruct (walk_step s k first j node true true c t G Pc T) as (t1 & T1 & Lb & W). rewrite W. clear W. assert (Mk1 := marks_add s t0 t t1 node V c Pc Mk Lb V1 E1).
      assert (Ab1 : about s p Q V1) by (intros x Hx; apply E1 in Hx; destruct Hx as [->|Hx]; [auto|now apply Ab]). assert (If1 : In (first, j) V1) by (apply E1; now right). cbn [way].
      assert (C1 : forall x y, In x V1 -> ahead s x = Some y -> In y V1) by (intros x y Hx Hy; apply E1; right; apply E1 in Hx; now apply (A1 x)).
      destruct (behind s c) as [d|] eqn:Ed.
      + destruct (behind_ahead s c d G Pc Ed) as (Pd & Bk & Pt & Nf). assert (Ptd : point s d =v= p) by now rewrite Pt. assert (Qd : Q d) by (apply (Ps c); auto).
        destruct (Z.eqb_spec (fst d) first) as [Ef|Nfi].
        * exists t1, V1. split; [reflexivity|]. split; [exact T1|]. split; [exact Mk1|]. split; [exact Ab1|]. split; [|exact If1]. intros x y Hx. split; [now apply C1|]. intros Hy. destruct (pair_dec x c) as [->|Nx]; [rewrite Ed in Hy; injection Hy as <-; rewrite (back_to_first d Pd Ptd Ef); exact If1|]. apply E1. apply E1 in Hx. destruct Hx as [->|Hx]; [contradiction|]. now apply (A2 x).
        * assert (Nd1 : ~ In d V1). { intros H. apply E1 in H. destruct H as [->|H]; [now apply Nf|]. now apply (A3 d H). }
          apply (IH d V1 t1 Pd Ptd Qd T1 N1 Ab1 If1 Mk1).
          -- intros x y [->|Hx] Hy; [rewrite Bk in Hy; injection Hy as <-; apply E1; now left|now apply (C1 x)].
          -- intros x y Hx Nx Hy. destruct (pair_dec x c) as [->|Nc]; [left; congruence|]. right. apply E1. apply E1 in Hx. destruct Hx as [->|Hx]; [contradiction|]. now apply (A2 x).
          -- intros x Hx Hy. apply Nd1. now apply (C1 x).
          -- exact B1.
          -- intros H. contradiction.
      + exists t1, V1. split; [reflexivity|]. split; [exact T1|]. split; [exact Mk1|]. split; [exact Ab1|]. split; [|exact If1]. intros x y Hx. split; [now apply C1|]. intros Hy. destruct (pair_dec x c) as [->|Nx]; [congruence|]. apply E1. apply E1 in Hx. destruct Hx as [->|Hx]; [contradiction|]. now apply (A2 x).
  Qed.
  Lemma walk_ahead : forall k c V t, proper s c -> point s c =v= p -> Q c -> tris (u_ids s) t -> NoDup (c :: V) -> about s p Q V -> In (first, j) (c :: V) -> marks t0 t node V ->
    (forall x y, In x V -> ahead s x = Some y -> y = c \/ In y V) -> (forall x y, x = c \/ In x V -> x <> (first, j) -> behind s x = Some y -> In y V) -> (forall x, In x V -> ahead s x <> Some (first, j)) ->
    (bound < length V + k)%nat ->
    exists t' V', walk k s first j node false false (fst c) (vnot false (snd c)) t = Ok t' /\ tris (u_ids s) t' /\ marks t0 t' node V' /\ about s p Q V' /\ closed s V' /\ In (first, j) V'.
  Proof using G Sm Pf Bd Ps.
    induction k as [|k IH]; intros c V t Pc Ec Qc T Nd Ab If Mk A1 A2 A3 F1.
    - exfalso. assert (Q2 := about_length s p Q (c :: V)). cbn [length] in Q2. fold p in Bd. enough (Datatypes.S (length V) <= length (corners_at s p))%nat by lia. apply Q2; [intros x [<-|Hx]; [auto|now apply Ab]|exact Nd].
    - destruct (walk_step s k first j node false false c t G Pc T) as (t1 & T1 & Lb & W). rewrite W. clear W. set (V1 := c :: V) in *. assert (E1 : forall x, In x V1 <-> x = c \/ In x V) by (intros x; split; [intros [<-|H]; auto|intros [->|H]; [now left|now right]]). assert (Mk1 := marks_add s t0 t t1 node V c Pc Mk Lb V1 E1).
      assert (Ab1 : about s p Q V1) by (intros x Hx; apply E1 in Hx; destruct Hx as [->|Hx]; [auto|now apply Ab]). cbn [way].
      assert (C1 : forall x y, In x V1 -> x <> (first, j) -> behind s x = Some y -> In y V1) by (intros x y Hx Nx Hy; apply E1; right; apply E1 in Hx; now apply (A2 x)).
      assert (C2 : forall x y, In x V -> ahead s x = Some y -> In y V1) by (intros x y Hx Hy; apply E1; now apply (A1 x)).
      destruct (ahead s c) as [d|] eqn:Ed.
      + destruct (ahead_behind s c d G Pc Ed) as (Pd & Bk & Pt & Nf). assert (Ptd : point s d =v= p) by now rewrite Pt. assert (Qd : Q d) by (apply (Ps c); auto).
        destruct (Z.eqb_spec (fst d) first) as [Ef|Nfi].
        * exists t1, V1. split; [reflexivity|]. split; [exact T1|]. split; [exact Mk1|]. split; [exact Ab1|]. split; [|exact If]. assert (d = (first, j)) as -> by now apply back_to_first. intros x y Hx. split.
          -- intros Hy. apply E1 in Hx. destruct Hx as [->|Hx]; [|now apply (C2 x)]. rewrite Ed in Hy. injection Hy as <-. exact If.
          -- intros Hy. destruct (pair_dec x (first, j)) as [->|Nx]; [|now apply (C1 x)]. rewrite Bk in Hy. injection Hy as <-. now left.
        * assert (Ndf : d <> (first, j)) by (intros ->; now apply Nfi). assert (Nd1 : ~ In d V1). { intros H. assert (H2 : In c V) by (apply (A2 d c); [now apply E1|exact Ndf|exact Bk]). inversion Nd; contradiction. }
          apply (IH d V1 t1 Pd Ptd Qd T1).
          -- constructor; [exact Nd1|exact Nd].
          -- exact Ab1.
          -- right. exact If.
          -- exact Mk1.
          -- intros x y Hx Hy. apply E1 in Hx. destruct Hx as [->|Hx]; [left; congruence|right; now apply (C2 x)].
          -- intros x y [->|Hx] Nx Hy; [rewrite Bk in Hy; injection Hy as <-; now left|now apply (C1 x)].
          -- intros x Hx. apply E1 in Hx. destruct Hx as [->|Hx]; [congruence|now apply A3].
          -- unfold V1. cbn [length]. lia.
      + assert (Qf : Q (first, j)) by (apply E1 in If; destruct If as [->|If']; [exact Qc|now apply Ab]). apply (walk_back k (first, j) V1 t1 Pf); auto.
        * reflexivity.
        * intros x y Hx Hy. assert (Hx1 : In x V1) by (destruct Hx as [->|H]; assumption). apply E1 in Hx1. destruct Hx1 as [->|H]; [congruence|now apply (C2 x)].
        * intros x y Hx Nx Hy. right. now apply (C1 x).
        * intros x Hx. apply E1 in Hx. destruct Hx as [->|Hx]; [congruence|now apply A3].
        * unfold V1. cbn [length]. lia.
        * intros _. unfold V1. cbn [length]. lia.
  Qed.
End Around.
Lemma walk_all s first j node t Q : glued s -> simple s -> proper s (first, j) -> tris (u_ids s) t -> (length (corners_at s (corner s first j)) < 100)%nat -> passing s Q -> Q (first, j) ->
  exists t' V, walk 100 s first j node false false first ((j + 2) mod 3) t = Ok t' /\ tris (u_ids s) t' /\ marks t t' node V /\ about s (corner s first j) Q V /\ closed s V /\ In (first, j) V.
Proof.
  intros G Sm Pf T B Ps Qf. apply (walk_ahead s first j node t 99 Q Ps G Sm Pf ltac:(lia) 100 (first, j) [] t); auto.
  - reflexivity.
  - constructor; [intros []|constructor].
  - intros x [].
  - now left.
  - intros y u. split; [intros []|reflexivity].
  - intros x y [->|[]] H. contradiction.
Qed.

(** Proofs on the convex hull: the two passes over the sorted vertices. *)
From Coq Require Import Reals List Lra Lia Sorted Permutation.
From Verif Require Import Fem_Model Hull_Model Hull_Spec.
Import ListNotations.
Open Scope R_scope.

Notation X s := (px (v2D s)).
Notation Y s := (py (v2D s)).

Lemma turn_eq a b p : turn a b p = (X b - X a) * (Y p - Y a) - (Y b - Y a) * (X p - X a).
Proof. unfold turn, pcross, psub; cbn; ring. Qed.

(** Directions whose first component that differs from zero is positive. *)
Definition ahead (x y : R) : Prop := 0 < x \/ (x = 0 /\ 0 < y).
Lemma ahead_trans x1 y1 x2 y2 x3 y3 : ahead x1 y1 -> ahead x2 y2 -> ahead x3 y3 ->
  x1 * y2 - y1 * x2 <= 0 -> x2 * y3 - y2 * x3 <= 0 -> x1 * y3 - y1 * x3 <= 0.
Proof.
  intros H1 H2 H3 A B.
  assert (N1 : 0 <= x1) by (destruct H1 as [? | [? _]]; lra).
  assert (N3 : 0 <= x3) by (destruct H3 as [? | [? _]]; lra).
  destruct H2 as [P2 | [E2 P2]].
  - apply Rmult_le_reg_l with x2; [exact P2 | rewrite Rmult_0_r].
    replace (x2 * (x1 * y3 - y1 * x3)) with (x3 * (x1 * y2 - y1 * x2) + x1 * (x2 * y3 - y2 * x3)) by ring.
    assert (x3 * (x1 * y2 - y1 * x2) <= 0) by (rewrite <- (Rmult_0_r x3); now apply Rmult_le_compat_l).
    assert (x1 * (x2 * y3 - y2 * x3) <= 0) by (rewrite <- (Rmult_0_r x1); now apply Rmult_le_compat_l).
    lra.
  - subst x2. assert (E1 : x1 = 0). { destruct N1 as [N1 | N1]; [exfalso | now symmetry]. pose proof (Rmult_lt_0_compat _ _ N1 P2). lra. }
    destruct H1 as [? | [_ P1]]; [lra |]. subst x1. assert (0 <= y1 * x3) by (apply Rmult_le_pos; lra). lra.
Qed.
Lemma ahead_antisym x1 y1 x2 y2 : ahead x1 y1 -> ahead x2 y2 -> x1 * y2 - y1 * x2 = 0 -> exists t, 0 < t /\ x2 = t * x1 /\ y2 = t * y1.
Proof.
  intros [P1 | [E1 P1]] H2 E.
  - destruct H2 as [P2 | [E2 P2]].
    + exists (x2 / x1). split; [now apply Rdiv_lt_0_compat |]. split; [field; lra |].
      apply Rmult_eq_reg_l with x1; [| lra]. field_simplify; lra.
    + subst x2. exfalso. pose proof (Rmult_lt_0_compat _ _ P1 P2). lra.
  - subst x1. destruct H2 as [P2 | [E2 P2]].
    + exfalso. pose proof (Rmult_lt_0_compat _ _ P1 P2). lra.
    + subst x2. exists (y2 / y1). split; [now apply Rdiv_lt_0_compat |]. split; [ring | field; lra].
Qed.

(** Neighbouring entries of a list. *)
Fixpoint edges {A} (l : list A) : list (A * A) :=
  match l with
  | b :: ((a :: _) as r) => (b, a) :: edges r
  | _ => []
  end.
Lemma edges_in {A} (l : list A) a b : In (a, b) (edges l) -> In a l /\ In b l.
Proof.
  induction l as [| p [| q l] IH]; [easy | easy |]. cbn [edges]. intros [H | H].
  - injection H as <- <-. cbn; auto.
  - destruct (IH H). split; right; assumption.
Qed.
Lemma edges_app {A} (l m : list A) x : edges (l ++ x :: m) = edges (l ++ [x]) ++ edges (x :: m).
Proof.
  induction l as [| p l IH]; [reflexivity |]. destruct l as [| q l]; [destruct m; reflexivity |].
  change (edges ((p :: q :: l) ++ x :: m)) with ((p, q) :: edges ((q :: l) ++ x :: m)). rewrite IH. reflexivity.
Qed.
Lemma edges_rev {A} (l : list A) a b : In (a, b) (edges (rev l)) <-> In (b, a) (edges l).
Proof.
  induction l as [| p l IH]; [easy |]. destruct l as [| q l]; [easy |].
  change (rev (p :: q :: l)) with (rev (q :: l) ++ [p]). change (rev (q :: l)) with (rev l ++ [q]) in *. rewrite <- app_assoc.
  change ([q] ++ [p]) with (q :: [p]). rewrite edges_app, in_app_iff, IH. cbn [edges In]. split; intros [H | H]; auto.
  - destruct H as [H | []]. injection H as <- <-. now left.
  - injection H as <- <-. right; now left.
Qed.
Lemma edges_next {A} (l m : list A) x : m <> [] -> exists y, In (x, y) (edges (l ++ x :: m)).
Proof. destruct m as [| y m]; [easy |]. intros _. exists y. rewrite edges_app. apply in_or_app. right. now left. Qed.
Lemma edges_prev {A} (l m : list A) x : l <> [] -> exists y, In (y, x) (edges (l ++ x :: m)).
Proof.
  intros H. destruct (exists_last H) as (l' & y & ->). exists y. rewrite <- app_assoc. change ([y] ++ x :: m) with (y :: x :: m).
  rewrite edges_app. apply in_or_app. right. now left.
Qed.

Section Pass.
(** 1 for the first pass, -1 for the second, which goes through the vertices the other way round. *)
Context (sg : R) (Hsg : sg = 1 \/ sg = -1).
Lemma sg2 : sg * sg = 1.
Proof. destruct Hsg as [-> | ->]; ring. Qed.
Definition lx (a b : svertex) : Prop := ahead (sg * (X b - X a)) (sg * (Y b - Y a)).
Lemma lx_trans a b c : lx a b -> lx b c -> lx a c.
Proof. unfold lx, ahead. destruct Hsg; subst sg; intros [? | []] [? | []]; ((left; lra) || (right; split; lra)). Qed.
Lemma lx_neq a b : lx a b -> a <> b.
Proof. unfold lx, ahead. intros H ->. destruct Hsg; subst sg; destruct H as [? | []]; lra. Qed.
Lemma lx_three a b c d e f : lx a b -> lx c d -> lx e f ->
  (X b - X a) * (Y d - Y c) - (Y b - Y a) * (X d - X c) <= 0 -> (X d - X c) * (Y f - Y e) - (Y d - Y c) * (X f - X e) <= 0 ->
  (X b - X a) * (Y f - Y e) - (Y b - Y a) * (X f - X e) <= 0.
Proof.
  intros H1 H2 H3 A B. pose proof (ahead_trans _ _ _ _ _ _ H1 H2 H3) as T.
  pose proof sg2 as S.
  assert (E : forall x y z w, sg * x * (sg * w) - sg * y * (sg * z) = (sg * sg) * (x * w - y * z)) by (intros; ring).
  rewrite !E, S, !Rmult_1_l in T. auto.
Qed.

(** The entries are sorted, from the top down, and three in a row never turn left. *)
Fixpoint good (st : list svertex) : Prop :=
  match st with
  | p :: ((b :: r) as t) => lx b p /\ match r with a :: _ => turn a b p <= 0 | [] => True end /\ good t
  | _ => True
  end.
Lemma good_tail p t : good (p :: t) -> good t.
Proof. destruct t; [easy |]. intros (_ & _ & H). exact H. Qed.
Lemma good_edge st b a : good st -> In (b, a) (edges st) -> lx a b.
Proof.
  induction st as [| p [| q st] IH]; [easy | easy |]. intros G [H | H].
  - injection H as <- <-. exact (proj1 G).
  - apply IH; [exact (good_tail _ _ G) | exact H].
Qed.
Lemma good_top p t q : good (p :: t) -> In q t -> lx q p.
Proof.
  revert p. induction t as [| b t IH]; [easy |]. intros p G [-> | H]; [exact (proj1 G) |].
  apply lx_trans with b; [apply IH; [exact (good_tail _ _ G) | exact H] | exact (proj1 G)].
Qed.
(** Older edges are at least as steep as newer ones. *)
Lemma good_dirs r b a y x : good (b :: a :: r) -> In (y, x) (edges (a :: r)) ->
  (X y - X x) * (Y b - Y a) - (Y y - Y x) * (X b - X a) <= 0.
Proof.
  revert b a. induction r as [| c r IH]; [easy |]. intros b a G H.
  assert (G' : good (a :: c :: r)) by exact (good_tail _ _ G). destruct G as (L & T & _). rewrite turn_eq in T.
  destruct H as [H | H].
  - injection H as <- <-. lra.
  - apply lx_three with c a; [exact (good_edge _ _ _ G' (or_intror H)) | exact (proj1 G') | exact L | exact (IH _ _ G' H) | lra].
Qed.
(** All entries lie on the right of every edge. *)
Lemma good_support st b a q : good st -> In (b, a) (edges st) -> In q st -> turn a b q <= 0.
Proof.
  revert b a q. induction st as [| p t IH]; [easy |]. intros b a q G H Q.
  destruct t as [| c t]; [easy |]. pose proof (good_tail _ _ G) as Gt.
  assert (B : forall b a, In (b, a) (edges (c :: t)) -> turn a b p <= 0).
  { intros b' a' H'. pose proof (IH b' a' c Gt H' (or_introl eq_refl)) as C. pose proof (good_dirs _ _ _ _ _ G H') as D.
    rewrite turn_eq in *. lra. }
  destruct H as [H | H].
  - injection H as <- <-. destruct Q as [<- | [<- | Q]]; [rewrite turn_eq; lra | rewrite turn_eq; lra |].
    (* q below the edge: the edge c - q', ... *)
    assert (S : forall r p' c', good (p' :: c' :: r) -> forall q, In q r -> turn c' p' q <= 0).
    { clear - Hsg. induction r as [| d r IH]; [easy |]. intros p c G q Q. pose proof (good_tail _ _ G) as Gt.
      destruct G as (L & T & _). destruct Q as [<- | Q].
      - rewrite turn_eq in *. lra.
      - pose proof (IH c d Gt q Q) as I. rewrite turn_eq in *.
        assert (Lq : lx q d) by (apply good_top with r; [exact (good_tail _ _ Gt) | exact Q]).
        assert (K : (X d - X q) * (Y p - Y c) - (Y d - Y q) * (X p - X c) <= 0).
        { apply lx_three with d c; [exact Lq | exact (proj1 Gt) | exact L | lra | lra]. }
        lra. }
    exact (S _ _ _ G _ Q).
  - destruct Q as [<- | Q]; [exact (B _ _ H) | exact (IH _ _ _ Gt H Q)].
Qed.

(** ** The loop *)
Lemma unwind_suffix st p : exists l, st = l ++ unwind st p.
Proof.
  induction st as [| b [| a t] IH]; [now exists [] | now exists [] |]. cbn [unwind]. destruct (Rle_dec _ _); [now exists [] |].
  destruct IH as (l & E). exists (b :: l). exact (f_equal (cons b) E).
Qed.
Lemma unwind_nonempty st p : st <> [] -> unwind st p <> [].
Proof. induction st as [| b [| a t] IH]; [easy | easy |]. intros _. cbn [unwind]. destruct (Rle_dec _ _); [easy | apply IH; easy]. Qed.
Lemma unwind_in st p q : In q (unwind st p) -> In q st.
Proof. destruct (unwind_suffix st p) as (l & E). intros H. rewrite E. apply in_or_app. now right. Qed.
Lemma good_unwind st p : good st -> good (unwind st p).
Proof.
  induction st as [| b [| a t] IH]; [easy | easy |]. intros G. cbn [unwind]. destruct (Rle_dec _ _); [exact G |].
  apply IH. exact (good_tail _ _ G).
Qed.
Lemma good_push st p : good st -> (forall q, In q st -> lx q p) -> good (hull_push st p).
Proof.
  intros G L. unfold hull_push. induction st as [| b [| a t] IH]; [easy | cbn; auto using in_eq |].
  cbn [unwind]. destruct (Rle_dec (turn a b p) 0) as [T | T].
  - split; [apply L; now left |]. split; [exact T | exact G].
  - apply IH; [exact (good_tail _ _ G) | intros q Q; apply L; now right].
Qed.

(** A linear function not decreasing upwards (downwards in the second pass). *)
Definition lin (al be : R) (s : svertex) : R := al * X s + be * Y s.
Lemma removed_below al be a b p : 0 <= sg * be -> lx a b -> lx b p -> 0 < turn a b p -> lin al be b <= lin al be a \/ lin al be b <= lin al be p.
Proof.
  intros Hb L1 L2 T. rewrite turn_eq in T. unfold lin.
  set (x1 := sg * (X b - X a)). set (x2 := sg * (X p - X b)).
  assert (N1 : 0 <= x1) by (unfold lx, ahead in L1; fold x1 in L1; destruct L1 as [? | []]; lra).
  assert (N2 : 0 <= x2) by (unfold lx, ahead in L2; fold x2 in L2; destruct L2 as [? | []]; lra).
  set (fa := al * (X b - X a) + be * (Y b - Y a)). set (fp := al * (X p - X b) + be * (Y p - Y b)).
  assert (K : x1 * fp - x2 * fa = (sg * be) * ((X b - X a) * (Y p - Y a) - (Y b - Y a) * (X p - X a))) by (unfold x1, x2, fa, fp; ring).
  assert (S : 0 < x1 + x2).
  { destruct (Rlt_dec 0 (x1 + x2)) as [? | N]; [assumption | exfalso]. assert (Z1 : x1 = 0) by lra. assert (Z2 : x2 = 0) by lra.
    unfold x1, x2 in Z1, Z2. assert (W1 : X b - X a = 0) by (destruct Hsg as [E | E]; rewrite E in Z1; lra). assert (W2 : X p - X b = 0) by (destruct Hsg as [E | E]; rewrite E in Z2; lra).
    replace (X p - X a) with 0 in T by lra. rewrite W1 in T. lra. }
  assert (K0 : 0 <= x1 * fp - x2 * fa) by (rewrite K; apply Rmult_le_pos; lra).
  destruct (Rle_dec 0 fp) as [F | F]; [right; unfold fp in F; lra |].
  destruct (Rle_dec fa 0) as [G | G]; [left; unfold fa in G; lra | exfalso].
  assert (x1 * fp <= 0) by (rewrite <- (Rmult_0_r x1); apply Rmult_le_compat_l; lra).
  assert (0 <= x2 * fa) by (apply Rmult_le_pos; lra).
  destruct N1 as [N1 | N1].
  - pose proof (Rmult_lt_0_compat _ _ N1 (Ropp_gt_lt_0_contravar _ (Rnot_le_lt _ _ F))) as M. lra.
  - rewrite <- N1 in S. assert (P2 : 0 < x2) by lra. pose proof (Rmult_lt_0_compat _ _ P2 (Rnot_le_lt _ _ G)). lra.
Qed.
Lemma push_dominates al be st p c : 0 <= sg * be -> good st -> (forall q, In q st -> lx q p) -> In c st ->
  exists d, In d (hull_push st p) /\ lin al be c <= lin al be d.
Proof.
  intros Hb. unfold hull_push. revert c. induction st as [| b [| a t] IH]; [easy | |]; intros c G L C.
  - exists c. split; [now right | lra].
  - cbn [unwind]. destruct (Rle_dec (turn a b p) 0) as [T | T]; [exists c; split; [now right | lra] |].
    assert (Gt := good_tail _ _ G). assert (Lt : forall q, In q (a :: t) -> lx q p) by (intros q Q; apply L; now right).
    destruct C as [<- | C]; [| exact (IH c Gt Lt C)].
    destruct (removed_below al be a b p Hb (proj1 G) (L b (or_introl eq_refl)) (Rnot_le_lt _ _ T)) as [M | M].
    + destruct (IH a Gt Lt (or_introl eq_refl)) as (d & D & E). exists d. split; [exact D | lra].
    + exists p. split; [now left | exact M].
Qed.
Lemma pass_ok l : forall st, good st -> StronglySorted lx l -> (forall q p, In q st -> In p l -> lx q p) ->
  let st' := fold_left hull_push l st in
  good st' /\ (forall q, In q st' -> In q st \/ In q l) /\
  (forall al be q, 0 <= sg * be -> In q st \/ In q l -> exists d, In d st' /\ lin al be q <= lin al be d).
Proof.
  induction l as [| p l IH]; intros st G Sl L; cbn [fold_left].
  - split; [exact G |]. split; [auto |]. intros al be q _ [H | []]. exists q. split; [exact H | lra].
  - inversion_clear Sl as [| ? ? Sl' F]. rewrite Forall_forall in F.
    assert (Lp : forall q, In q st -> lx q p) by (intros q Q; apply L; [exact Q | now left]).
    destruct (IH (hull_push st p)) as (G' & I & D); [now apply good_push | exact Sl' | |].
    + intros q r [<- | Q] R'; [now apply F |]. apply L; [exact (unwind_in _ _ _ Q) | now right].
    + split; [exact G' |]. split.
      * intros q Q. destruct (I q Q) as [[<- | H] | H]; [right; now left | left; exact (unwind_in _ _ _ H) | right; now right].
      * intros al be q Hb Q. destruct Q as [Q | [<- | Q]].
        -- destruct (push_dominates al be st p q Hb G Lp Q) as (d & Hd & E). destruct (D al be d Hb (or_introl Hd)) as (d' & Hd' & E').
           exists d'. split; [exact Hd' | lra].
        -- apply D; [exact Hb | left; now left].
        -- apply D; [exact Hb | now right].
Qed.
Lemma pass_bottom l : forall st b, (exists t, st = t ++ [b]) -> exists t, fold_left hull_push l st = t ++ [b].
Proof.
  induction l as [| p l IH]; intros st b (t & E); cbn [fold_left]; [now exists t |]. apply IH.
  unfold hull_push. destruct (unwind_suffix st p) as (k & Ek).
  assert (N : unwind st p <> []) by (apply unwind_nonempty; rewrite E; now destruct t).
  destruct (exists_last N) as (u & x & Eu). rewrite Eu in Ek |- *. rewrite E, app_assoc in Ek. apply app_inj_tail in Ek. destruct Ek as [_ <-].
  now exists (p :: u).
Qed.
Lemma pass_top l p st : exists t, fold_left hull_push (l ++ [p]) st = p :: t.
Proof. rewrite fold_left_app. cbn. now exists (unwind (fold_left hull_push l st) p). Qed.
Lemma good_nodup st : good st -> NoDup st.
Proof.
  induction st as [| p t IH]; [constructor |]. intros G. constructor; [| apply IH; exact (good_tail _ _ G)].
  intros H. exact (lx_neq _ _ (good_top _ _ _ G H) eq_refl).
Qed.
(** All vertices processed lie on the right of every edge. *)
Lemma dominated_support st q b a : good st -> (forall al be, 0 <= sg * be -> exists d, In d st /\ lin al be q <= lin al be d) ->
  In (b, a) (edges st) -> turn a b q <= 0.
Proof.
  intros G D H. pose proof (good_edge _ _ _ G H) as L.
  assert (N : 0 <= sg * (X b - X a)) by (unfold lx, ahead in L; destruct L as [? | []]; lra).
  destruct (D (- (Y b - Y a)) (X b - X a) N) as (d & Hd & E).
  pose proof (good_support _ _ _ _ G H Hd) as Sd. rewrite turn_eq in *. unfold lin in E. lra.
Qed.
End Pass.

(** ** Both passes *)
Lemma sorted_snoc {A} (Rl : A -> A -> Prop) l x : StronglySorted Rl l -> (forall y, In y l -> Rl y x) -> StronglySorted Rl (l ++ [x]).
Proof.
  induction l as [| y l IH]; intros H F; cbn [app]; [repeat constructor |]. inversion_clear H. constructor.
  - apply IH; [assumption | intros z Z; apply F; now right].
  - rewrite Forall_forall in *. intros z Z. apply in_app_or in Z. destruct Z as [Z | [<- | []]]; [auto | apply F; now left].
Qed.
Lemma sorted_rev l : StronglySorted (lx 1) l -> StronglySorted (lx (-1)) (rev l).
Proof.
  induction l as [| x l IH]; intros H; cbn [rev]; [constructor |]. inversion_clear H as [| ? ? Sl F]. apply sorted_snoc; [now apply IH |].
  rewrite Forall_forall in F. intros y Y'. apply in_rev in Y'. specialize (F y Y'). unfold lx, ahead in *. destruct F as [? | []]; [left | right]; lra.
Qed.

Section Cycle.
Context (s0 sl : svertex) (mid : list svertex).
Definition all := s0 :: mid ++ [sl].
Context (Hs : StronglySorted (lx 1) all).
Let one : 1 = 1 \/ 1 = -1 := or_introl eq_refl.
Let mone : -1 = 1 \/ -1 = -1 := or_intror eq_refl.

Lemma s0_first q : In q (mid ++ [sl]) -> lx 1 s0 q.
Proof. unfold all in Hs. inversion_clear Hs as [| ? ? ? F]. rewrite Forall_forall in F. apply F. Qed.
Lemma ends_differ : s0 <> sl.
Proof. apply lx_neq with 1; [exact one |]. apply s0_first. apply in_or_app. right. now left. Qed.
Lemma rev_all : rev all = sl :: rev mid ++ [s0].
Proof. unfold all. cbn [rev]. rewrite rev_app_distr. reflexivity. Qed.
Lemma wedge {A} (t t' : list A) (x y : A) : x <> y -> x :: t = t' ++ [y] -> exists v, t = v ++ [y].
Proof. intros N E. destruct t' as [| z t']; cbn in E; injection E; intros; subst; [now elim N | now exists t']. Qed.

Lemma low_ok : exists v, lower_pass all = sl :: v ++ [s0] /\ good 1 (lower_pass all) /\ (forall q, In q (lower_pass all) -> In q all) /\
  (forall al be q, 0 <= be -> In q all -> exists d, In d (lower_pass all) /\ lin al be q <= lin al be d).
Proof.
  assert (E : lower_pass all = fold_left hull_push (mid ++ [sl]) [s0]) by reflexivity.
  destruct (pass_ok 1 one (mid ++ [sl]) [s0]) as (G & I & D); [easy | unfold all in Hs; now inversion_clear Hs | |].
  { intros q p [<- | []] H. now apply s0_first. }
  destruct (pass_top mid sl [s0]) as (t & T). destruct (pass_bottom (mid ++ [sl]) [s0] s0 (ex_intro _ [] eq_refl)) as (t' & T').
  rewrite <- E in *. destruct (wedge t t' sl s0) as (v & V); [intros H; now apply ends_differ | now rewrite <- T |].
  exists v. split; [now rewrite T, V |]. split; [exact G |]. split.
  - intros q Q. destruct (I q Q) as [[<- | []] | H]; [now left | now right].
  - intros al be q Hb Q. apply D; [lra |]. destruct Q as [<- | Q]; [left; now left | now right].
Qed.
Lemma up_ok : exists w, upper_pass all = s0 :: w ++ [sl] /\ good (-1) (upper_pass all) /\ (forall q, In q (upper_pass all) -> In q all) /\
  (forall al be q, be <= 0 -> In q all -> exists d, In d (upper_pass all) /\ lin al be q <= lin al be d).
Proof.
  assert (E : upper_pass all = fold_left hull_push (rev mid ++ [s0]) [sl]) by (unfold upper_pass; now rewrite rev_all).
  pose proof (sorted_rev _ Hs) as Sr. rewrite rev_all in Sr. inversion_clear Sr as [| ? ? Sr' F]. rewrite Forall_forall in F.
  destruct (pass_ok (-1) mone (rev mid ++ [s0]) [sl]) as (G & I & D); [easy | exact Sr' | |].
  { intros q p [<- | []] H. now apply F. }
  destruct (pass_top (rev mid) s0 [sl]) as (t & T). destruct (pass_bottom (rev mid ++ [s0]) [sl] sl (ex_intro _ [] eq_refl)) as (t' & T').
  rewrite <- E in *. destruct (wedge t t' s0 sl) as (v & V); [exact ends_differ | now rewrite <- T |].
  assert (M : forall q, In q all <-> In q [sl] \/ In q (rev mid ++ [s0])).
  { intros q. rewrite in_rev, rev_all. cbn [In]. tauto. }
  exists v. split; [now rewrite T, V |]. split; [exact G |]. split.
  - intros q Q. apply M. exact (I q Q).
  - intros al be q Hb Q. apply D; [lra | now apply M].
Qed.

Lemma follows_edges {A} (h : list A) a b x : follows (x :: h) a b -> In (a, b) (edges ((x :: h) ++ [x])).
Proof.
  intros [(l & m & E) | (m & E)].
  - rewrite E, <- app_assoc. cbn [app]. rewrite edges_app. apply in_or_app. right. now left.
  - injection E as -> ->. rewrite app_comm_cons, <- app_assoc. change ([a] ++ [b]) with (a :: [b]). rewrite edges_app. apply in_or_app. right. now left.
Qed.

Lemma cycle_ok : (exists a b c, In a all /\ In b all /\ In c all /\ turn a b c <> 0) ->
  (forall q, In q (hull_cycle all) -> In q all) /\
  NoDup (hull_cycle all) /\
  (forall a b q, follows (hull_cycle all) a b -> In q all -> turn a b q <= 0) /\
  (forall al be q, In q all -> exists d, In d (hull_cycle all) /\ lin al be q <= lin al be d).
Proof.
  intros NC. destruct low_ok as (v & Ev & Gl & Il & Dl). destruct up_ok as (w & Ew & Gu & Iu & Du).
  assert (EH : hull_cycle all = s0 :: rev v ++ sl :: rev w).
  { unfold hull_cycle. rewrite Ev, Ew. cbn [rev]. rewrite !rev_app_distr. cbn [rev app tl].
    replace (s0 :: (rev v ++ [sl]) ++ rev w ++ [s0]) with ((s0 :: rev v ++ sl :: rev w) ++ [s0]) by (cbn; rewrite <- !app_assoc; reflexivity).
    apply removelast_last. }
  assert (SL : forall a b q, In (b, a) (edges (lower_pass all)) -> In q all -> turn a b q <= 0).
  { intros a b q H Q. apply dominated_support with (sg := 1) (st := lower_pass all); [exact one | exact Gl | | exact H]. intros al be Hb. apply Dl; [lra | exact Q]. }
  assert (SU : forall a b q, In (b, a) (edges (upper_pass all)) -> In q all -> turn a b q <= 0).
  { intros a b q H Q. apply dominated_support with (sg := -1) (st := upper_pass all); [exact mone | exact Gu | | exact H]. intros al be Hb. apply Du; [lra | exact Q]. }
  assert (IH : forall q, In q (hull_cycle all) <-> In q (lower_pass all) \/ In q (upper_pass all)).
  { intros q. rewrite EH, Ev, Ew. cbn [In]. rewrite !in_app_iff, <- in_rev. cbn [In]. rewrite <- in_rev. tauto. }
  split. { intros q Q. apply IH in Q. destruct Q; auto. }
  split.
  { pose proof (good_nodup 1 one _ Gl) as Nl. pose proof (good_nodup (-1) mone _ Gu) as Nu.
    assert (Disj : forall x, In x v -> In x w -> False).
    { intros x Hv Hw. apply in_split in Hv. apply in_split in Hw. destruct Hv as (v1 & v2 & Hv). destruct Hw as (w1 & w2 & Hw).
      assert (El : lower_pass all = (sl :: v1) ++ x :: (v2 ++ [s0])) by (rewrite Ev, Hv; cbn; rewrite <- app_assoc; reflexivity).
      assert (Eu : upper_pass all = (s0 :: w1) ++ x :: (w2 ++ [sl])) by (rewrite Ew, Hw; cbn; rewrite <- app_assoc; reflexivity).
      destruct (edges_next (sl :: v1) (v2 ++ [s0]) x) as (c & Hc); [now destruct v2 |].
      destruct (edges_prev (sl :: v1) (v2 ++ [s0]) x) as (b & Hb); [easy |].
      destruct (edges_next (s0 :: w1) (w2 ++ [sl]) x) as (d & Hd); [now destruct w2 |].
      destruct (edges_prev (s0 :: w1) (w2 ++ [sl]) x) as (a & Ha); [easy |].
      rewrite <- El in Hc, Hb. rewrite <- Eu in Hd, Ha.
      assert (Ia : In a all) by (apply Iu; exact (proj1 (edges_in _ _ _ Ha))).
      assert (Id : In d all) by (apply Iu; exact (proj2 (edges_in _ _ _ Hd))).
      assert (Ib : In b all) by (apply Il; exact (proj1 (edges_in _ _ _ Hb))).
      pose proof (good_edge 1 _ _ _ Gl Hb) as Lb. pose proof (good_edge (-1) _ _ _ Gu Ha) as La. pose proof (good_edge (-1) _ _ _ Gu Hd) as Ld.
      (* u = b - x, v' = d - x, - w' = x - a *)
      assert (Au : ahead (X b - X x) (Y b - Y x)) by (unfold lx, ahead in *; destruct Lb as [? | []]; [left | right]; lra).
      assert (Aw : ahead (X x - X a) (Y x - Y a)) by (unfold lx, ahead in *; destruct La as [? | []]; [left | right]; lra).
      assert (Ad : ahead (X d - X x) (Y d - Y x)) by (unfold lx, ahead in *; destruct Ld as [? | []]; [left | right]; lra).
      pose proof (SL x b d Hb Id) as T1. pose proof (SU d x a Hd Ia) as T2. pose proof (SL x b a Hb Ia) as T3.
      rewrite turn_eq in T1, T2, T3.
      assert (P1 : (X b - X x) * (Y d - Y x) - (Y b - Y x) * (X d - X x) <= 0) by lra.
      assert (P2 : (X d - X x) * (Y x - Y a) - (Y d - Y x) * (X x - X a) <= 0) by lra.
      assert (P3 : (X x - X a) * (Y b - Y x) - (Y x - Y a) * (X b - X x) <= 0) by lra.
      pose proof (ahead_trans _ _ _ _ _ _ Ad Aw Au P2 P3) as P4.
      destruct (ahead_antisym _ _ _ _ Au Ad) as (t & Pt & Ex & Ey); [lra |].
      assert (Flat : forall q, In q all -> (X b - X x) * (Y q - Y x) - (Y b - Y x) * (X q - X x) = 0).
      { intros q Q. pose proof (SL x b q Hb Q) as S1. pose proof (SU d x q Hd Q) as S2. rewrite turn_eq in S1, S2.
        assert (S3 : 0 <= t * ((X b - X x) * (Y q - Y x) - (Y b - Y x) * (X q - X x))).
        { replace (t * ((X b - X x) * (Y q - Y x) - (Y b - Y x) * (X q - X x))) with ((t * (X b - X x)) * (Y q - Y x) - (t * (Y b - Y x)) * (X q - X x)) by ring.
          rewrite <- Ex, <- Ey. lra. }
        apply Rle_antisym; [exact S1 |]. apply Rmult_le_reg_l with t; [exact Pt | lra]. }
      destruct NC as (a1 & a2 & a3 & I1 & I2 & I3 & T). apply T. rewrite turn_eq.
      pose proof (Flat a1 I1) as F1. pose proof (Flat a2 I2) as F2. pose proof (Flat a3 I3) as F3.
      set (ux := X b - X x) in *. set (uy := Y b - Y x) in *.
      assert (G2 : ux * (Y a2 - Y a1) - uy * (X a2 - X a1) = 0) by lra.
      assert (G3 : ux * (Y a3 - Y a1) - uy * (X a3 - X a1) = 0) by lra.
      set (e2x := X a2 - X a1) in *. set (e2y := Y a2 - Y a1) in *. set (e3x := X a3 - X a1) in *. set (e3y := Y a3 - Y a1) in *.
      assert (K1 : ux * (e2x * e3y - e2y * e3x) = 0).
      { replace (ux * (e2x * e3y - e2y * e3x)) with (e2x * (ux * e3y - uy * e3x) - e3x * (ux * e2y - uy * e2x)) by ring. rewrite G2, G3. ring. }
      assert (K2 : uy * (e2x * e3y - e2y * e3x) = 0).
      { replace (uy * (e2x * e3y - e2y * e3x)) with (e2y * (ux * e3y - uy * e3x) - e3y * (ux * e2y - uy * e2x)) by ring. rewrite G2, G3. ring. }
      apply Rmult_integral in K1. apply Rmult_integral in K2. destruct K1 as [K1 | K1]; [| exact K1]. destruct K2 as [K2 | K2]; [| exact K2].
      destruct Au as [? | []]; lra. }
    rewrite EH. rewrite Ev in Nl. rewrite Ew in Nu.
    assert (N1 : NoDup (rev (sl :: v ++ [s0]) ++ rev w)).
    { assert (Na : forall (A : Type) (l m : list A), NoDup l -> NoDup m -> (forall x, In x l -> In x m -> False) -> NoDup (l ++ m)).
      { clear. intros A l m Hl Hm D. induction Hl as [| x l Hx Hl IH]; [exact Hm |]. cbn [app]. constructor.
        - rewrite in_app_iff. intros [H | H]; [exact (Hx H) | exact (D x (or_introl eq_refl) H)].
        - apply IH. intros y Y1 Y2. exact (D y (or_intror Y1) Y2). }
      apply Na.
      - now apply NoDup_rev.
      - apply NoDup_rev. inversion_clear Nu as [| ? ? _ Nu']. now apply NoDup_remove_1 in Nu'; rewrite app_nil_r in Nu'.
      - intros x H1 H2. apply in_rev in H1. apply in_rev in H2. inversion Nu as [| ? ? Hn Nu']; subst. apply NoDup_remove_2 in Nu'. rewrite app_nil_r in Nu'.
        destruct H1 as [<- | H1]; [exact (Nu' H2) |]. apply in_app_or in H1. destruct H1 as [H1 | [<- | []]]; [exact (Disj x H1 H2) |].
        apply Hn. apply in_or_app. now left. }
    cbn [rev] in N1. rewrite rev_app_distr in N1. cbn [rev app] in N1. rewrite <- app_assoc in N1. exact N1. }
  split.
  { intros a b q H Q. rewrite EH in H. apply follows_edges in H.
    replace ((s0 :: rev v ++ sl :: rev w) ++ [s0]) with ((s0 :: rev v) ++ sl :: (rev w ++ [s0])) in H by (cbn; rewrite <- app_assoc; reflexivity).
    rewrite edges_app in H. apply in_app_or in H. destruct H as [H | H].
    - apply SL; [| exact Q]. rewrite Ev. apply edges_rev. cbn [rev]. rewrite rev_app_distr. exact H.
    - apply SU; [| exact Q]. rewrite Ew. apply edges_rev. cbn [rev]. rewrite rev_app_distr. exact H. }
  intros al be q Q. destruct (Rle_dec 0 be) as [Hb | Hb].
  - destruct (Dl al be q Hb Q) as (d & Hd & E). exists d. split; [apply IH; now left | exact E].
  - destruct (Du al be q (Rlt_le _ _ (Rnot_le_lt _ _ Hb)) Q) as (d & Hd & E). exists d. split; [apply IH; now right | exact E].
Qed.
End Cycle.

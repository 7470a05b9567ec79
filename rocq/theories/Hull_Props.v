(** C101: the convex hull of points in a plane. *)
From Coq Require Import Reals List Lra Lia Sorted Permutation.
From Verif Require Import Fem_Model Fem_Proofs Hull_Model Hull_Spec Hull_Proofs.
Import ListNotations.
Open Scope R_scope.

Lemma sv_lt_true a b : sv_lt a b = true -> lx 1 a b.
Proof.
  unfold sv_lt, lx, ahead. destruct (Rlt_dec _ _); [left; lra |]. destruct (Req_EM_T _ _); [| easy]. destruct (Rlt_dec _ _); [right; lra | easy].
Qed.
Lemma sv_lt_false a b : sv_lt a b = false -> (X a <> X b \/ Y a <> Y b) -> lx 1 b a.
Proof.
  unfold sv_lt, lx, ahead. destruct (Rlt_dec _ _) as [| H1]; [easy |]. destruct (Req_EM_T _ _) as [E | E].
  - destruct (Rlt_dec _ _) as [| H2]; [easy |]. intros _ [H | H]; [contradiction | right; lra].
  - intros _ _. left. lra.
Qed.
Lemma sv_insert_perm a l : Permutation (a :: l) (sv_insert a l).
Proof.
  induction l as [| b l IH]; [apply Permutation_refl |]. cbn [sv_insert]. destruct (sv_lt b a); [| apply Permutation_refl].
  apply perm_trans with (b :: a :: l); [constructor | now constructor].
Qed.
Lemma sv_sort_perm l : Permutation l (sv_sort l).
Proof.
  induction l as [| a l IH]; [constructor |]. cbn. apply perm_trans with (a :: sv_sort l); [now constructor | apply sv_insert_perm].
Qed.
Lemma sv_insert_sorted a l : StronglySorted (lx 1) l -> (forall b, In b l -> X a <> X b \/ Y a <> Y b) -> StronglySorted (lx 1) (sv_insert a l).
Proof.
  induction l as [| b l IH]; intros H D; cbn [sv_insert]; [repeat constructor |]. inversion_clear H as [| ? ? Sl F]. rewrite Forall_forall in F.
  destruct (sv_lt b a) eqn:E.
  - constructor; [apply IH; [exact Sl | intros c C; apply D; now right] |]. rewrite Forall_forall. intros c C.
    apply (Permutation_in _ (Permutation_sym (sv_insert_perm a l))) in C. destruct C as [<- | C]; [now apply sv_lt_true | now apply F].
  - assert (L : lx 1 a b) by (apply sv_lt_false; [exact E | destruct (D b (or_introl eq_refl)); auto]).
    constructor; [constructor; [exact Sl | now rewrite Forall_forall] |]. rewrite Forall_forall. intros c [<- | C]; [exact L |].
    apply lx_trans with b; [now left | exact L | now apply F].
Qed.
Lemma sv_sort_sorted l : ForallOrdPairs (fun a b => X a <> X b \/ Y a <> Y b) l -> StronglySorted (lx 1) (sv_sort l).
Proof.
  induction 1 as [| a l F H IH]; [constructor |]. cbn. apply sv_insert_sorted; [exact IH |]. rewrite Forall_forall in F. intros b B. apply F.
  exact (Permutation_in _ (Permutation_sym (sv_sort_perm l)) B).
Qed.

(** The frame is made of three unit vectors at right angles, the third along the normal. *)
Lemma hull_frame a b c : 0 < pdot (tri_normal a b c) (tri_normal a b c) -> exists vx vy vz k,
  frame a b c = (vx, vy, vz) /\ pcross vx vy = vz /\ pcross vy vz = vx /\ pcross vz vx = vy /\ 0 < k /\ tri_normal a b c = pscale k vz.
Proof.
  intros HN. set (u := psub b a) in *. set (v := psub c a) in *.
  assert (Hu : 0 < pdot u u).
  { destruct (pdot_pos u) as [| N]; [assumption | exfalso]. symmetry in N. apply pdot_zero in N.
    change (tri_normal a b c) with (pcross u v) in HN. rewrite N in HN. unfold pdot, pcross in HN. cbn [px py pz] in HN. lra. }
  destruct (normalize_spec u Hu) as [U1 E1]. assert (L1 := pnorm_pos u Hu). set (vx := pnormalize u) in *. set (L := pnorm u) in *.
  set (W := pcross vx v).
  assert (EN : tri_normal a b c = pscale L W).
  { unfold tri_normal, W. fold u v. rewrite E1 at 1. unfold pscale, pcross; cbn. f_equal; ring. }
  assert (HW : 0 < pdot W W).
  { destruct (Rlt_dec 0 (pdot W W)) as [| N]; [assumption | exfalso]. apply (Rlt_irrefl 0). apply (Rlt_le_trans _ _ _ HN). rewrite EN.
    replace (pdot (pscale L W) (pscale L W)) with ((L * L) * pdot W W) by (unfold pdot, pscale; cbn; ring).
    assert (0 <= (L * L) * (- pdot W W)) by (apply Rmult_le_pos; [apply Rmult_le_pos |]; lra). lra. }
  destruct (normalize_spec W HW) as [U3 E3]. assert (L3 := pnorm_pos W HW). set (vz := pnormalize W) in *. set (M := pnorm W) in *.
  assert (O : pdot vx vz = 0).
  { apply Rmult_eq_reg_l with M; [| lra]. rewrite Rmult_0_r. transitivity (pdot vx W).
    - rewrite E3 at 1. unfold pdot, pscale; cbn; ring.
    - unfold W, pdot, pcross; cbn; ring. }
  set (vy := pcross vz vx).
  assert (U2 : pdot vy vy = 1).
  { transitivity (pdot vz vz * pdot vx vx - pdot vx vz * pdot vx vz); [unfold vy, pdot, pcross; cbn; ring |]. rewrite U1, U3, O. ring. }
  assert (Ey : pnormalize vy = vy).
  { unfold pnormalize. rewrite U2. destruct (Rlt_dec 0 1); [| reflexivity]. unfold pnorm. rewrite U2, sqrt_1. unfold pscale. destruct vy; cbn; f_equal; field. }
  exists vx, vy, vz, (L * M). split.
  { unfold frame. fold u v. fold vx. fold W. fold vz. fold vy. now rewrite Ey. }
  split.
  { transitivity (psub (pscale (pdot vx vx) vz) (pscale (pdot vx vz) vx)); [unfold vy, psub, pscale, pdot, pcross; cbn; f_equal; ring |].
    rewrite U1, O. unfold psub, pscale. destruct vz; cbn; f_equal; ring. }
  split.
  { transitivity (psub (pscale (pdot vz vz) vx) (pscale (pdot vx vz) vz)); [unfold vy, psub, pscale, pdot, pcross; cbn; f_equal; ring |].
    rewrite U3, O. unfold psub, pscale. destruct vx; cbn; f_equal; ring. }
  split; [reflexivity |]. split; [now apply Rmult_lt_0_compat |].
  rewrite EN. rewrite E3 at 1. unfold pscale; cbn. f_equal; ring.
Qed.
(** The third row of the matrix: areas seen in the projection. *)
Lemma project_turn vx vy vz a b p : pcross vx vy = vz -> pcross vy vz = vx -> pcross vz vx = vy ->
  turn (SV (transform (vx, vy, vz) a) a) (SV (transform (vx, vy, vz) b) b) (SV (transform (vx, vy, vz) p) p) =
  pz (transform (vx, vy, vz) (pcross (psub b a) (psub p a))).
Proof.
  intros Hz Hx Hy. rewrite turn_eq. cbn [v2D]. unfold transform. cbn [px py pz].
  assert (Zx : pz vx = px vy * py vz - py vy * px vz) by (rewrite <- Hx at 1; reflexivity).
  assert (Zy : pz vy = px vz * py vx - py vz * px vx) by (rewrite <- Hy at 1; reflexivity).
  assert (Zz : pz vz = px vx * py vy - py vx * px vy) by (rewrite <- Hz at 1; reflexivity).
  rewrite Zx, Zy, Zz. unfold pcross, psub. cbn [px py pz]. ring.
Qed.

Lemma pdot_pscale k n v : pdot (pscale k n) v = k * pdot n v.
Proof. unfold pdot, pscale; cbn [px py pz]. ring. Qed.

Section Plane.
Context (a b c : pt) (rest : list pt).
Let pts := a :: b :: c :: rest.
Let N := tri_normal a b c.
Context (HD : NoDup pts) (HN : 0 < pdot N N) (HP : forall p, In p pts -> pdot N (psub p a) = 0).
Let f := frame a b c.
Context (HT : pz (transform f N) <> 0).
Let sv p := SV (transform f p) p.

Lemma in_plane p q : In p pts -> In q pts -> pdot N (psub p q) = 0.
Proof. intros P1 Q1. pose proof (HP p P1). pose proof (HP q Q1). unfold pdot, psub in *; cbn [px py pz] in *. lra. Qed.
Lemma third_linear k v : pz (transform f (pscale k v)) = k * pz (transform f v).
Proof. unfold f. destruct (frame a b c) as [[vx vy] vz]. unfold transform, pscale; cbn [px py pz]. ring. Qed.
(** A cross product of two vectors of the plane is along the normal. *)
Lemma cross_normal u v : pdot N u = 0 -> pdot N v = 0 -> pscale (pdot N N) (pcross u v) = pscale (pdot N (pcross u v)) N.
Proof.
  intros H1 H2. assert (E : forall w, pcross N w = pcross N w) by reflexivity.
  (* N x (u x v) = u (N.v) - v (N.u) = 0, so (u x v) (N.N) = N (N.(u x v)) *)
  assert (Z : pcross N (pcross u v) = P 0 0 0).
  { transitivity (psub (pscale (pdot N v) u) (pscale (pdot N u) v)); [unfold psub, pscale, pdot, pcross; cbn [px py pz]; f_equal; ring |].
    rewrite H1, H2. unfold psub, pscale; cbn [px py pz]. f_equal; ring. }
  transitivity (psub (pscale (pdot N (pcross u v)) N) (pcross N (pcross N (pcross u v)))).
  - generalize (pcross u v). intros w. unfold psub, pscale, pdot, pcross; cbn [px py pz]. f_equal; ring.
  - rewrite Z. unfold psub, pscale, pcross; cbn [px py pz]. f_equal; ring.
Qed.
Lemma turn_in_plane p q r : In p pts -> In q pts -> In r pts ->
  pdot N N * turn (sv p) (sv q) (sv r) = pz (transform f N) * pdot N (pcross (psub q p) (psub r p)).
Proof.
  intros P1 Q1 R1. destruct (hull_frame a b c HN) as (vx & vy & vz & k & Ef & H1 & H2 & H3 & _). unfold sv, f in *. rewrite Ef.
  rewrite project_turn by assumption. rewrite <- Ef. fold f. rewrite <- third_linear, cross_normal by (apply in_plane; assumption).
  rewrite third_linear. ring.
Qed.
Lemma project_apart p q : In p pts -> In q pts -> p <> q -> X (sv p) <> X (sv q) \/ Y (sv p) <> Y (sv q).
Proof.
  intros P1 Q1 D. destruct (Req_EM_T (X (sv p)) (X (sv q))) as [E1 | E1]; [| now left]. destruct (Req_EM_T (Y (sv p)) (Y (sv q))) as [E2 | E2]; [| now right].
  exfalso. set (w := psub q p). set (m := pcross N w).
  destruct (hull_frame a b c HN) as (vx & vy & vz & k & Ef & H1 & H2 & H3 & _).
  assert (T : pz (transform f (pcross (psub q p) (psub (psub (P 0 0 0) (pscale (-1) (psub (P (px p + px m) (py p + py m) (pz p + pz m)) (P 0 0 0)))) p))) = 0).
  { unfold f. rewrite Ef, <- project_turn by assumption. unfold sv, f in E1, E2. rewrite Ef in E1, E2. rewrite turn_eq. cbn [v2D] in *. rewrite E1, E2. ring. }
  assert (M : pcross (psub q p) (psub (psub (P 0 0 0) (pscale (-1) (psub (P (px p + px m) (py p + py m) (pz p + pz m)) (P 0 0 0)))) p) = pscale (pdot w w) N).
  { transitivity (psub (pscale (pdot w w) N) (pscale (pdot N w) w)).
    - unfold m, w, psub, pscale, pdot, pcross; cbn [px py pz]. f_equal; ring.
    - unfold w at 3. rewrite in_plane by assumption. unfold psub, pscale; cbn [px py pz]. f_equal; ring. }
  rewrite M, third_linear in T. apply Rmult_integral in T. destruct T as [T | T]; [| exact (HT T)].
  apply pdot_zero in T. apply D. unfold w, psub in T. injection T as T1 T2 T3. apply pt_eq; lra.
Qed.
Lemma sv_pairs l : (forall p, In p l -> In p pts) -> NoDup l -> ForallOrdPairs (fun s t => X s <> X t \/ Y s <> Y t) (map sv l).
Proof.
  intros I D. induction D as [| p l Hp D IH]; cbn [map]; [constructor |]. constructor; [| apply IH; intros; apply I; now right].
  rewrite Forall_forall. intros t T. apply in_map_iff in T. destruct T as (q & <- & Q). apply project_apart; [apply I; now left | apply I; now right |].
  intros ->. exact (Hp Q).
Qed.
(** A linear function on the plane in terms of the projection. *)
Lemma reach_projected gx gy gz : exists al be d, forall p, In p pts -> reach gx gy gz p = lin al be (sv p) + d.
Proof.
  set (u := psub b a). set (v := psub c a). set (D := X (sv b) * 0).
  set (x1 := X (sv b) - X (sv a)). set (y1 := Y (sv b) - Y (sv a)). set (x2 := X (sv c) - X (sv a)). set (y2 := Y (sv c) - Y (sv a)).
  assert (Det : x1 * y2 - y1 * x2 <> 0).
  { assert (E := turn_in_plane a b c (or_introl eq_refl) (or_intror (or_introl eq_refl)) (or_intror (or_intror (or_introl eq_refl)))).
    rewrite turn_eq in E. fold x1 y1 x2 y2 in E. fold u v in E. change (pcross u v) with N in E.
    intros Z. rewrite Z, Rmult_0_r in E. symmetry in E. apply Rmult_integral in E. destruct E as [E | E]; [exact (HT E) | lra]. }
  set (g1 := reach gx gy gz u). set (g2 := reach gx gy gz v).
  exists ((g1 * y2 - g2 * y1) / (x1 * y2 - y1 * x2)), ((g2 * x1 - g1 * x2) / (x1 * y2 - y1 * x2)).
  eexists. intros p Hp.
  set (w := psub p a). set (s := pdot N (pcross w v) / pdot N N). set (t := pdot N (pcross u w) / pdot N N).
  assert (Nn : pdot N N <> 0) by lra.
  assert (W : pscale (pdot N N) w = P (pdot N (pcross w v) * px u + pdot N (pcross u w) * px v + pdot N w * px N)
     (pdot N (pcross w v) * py u + pdot N (pcross u w) * py v + pdot N w * py N) (pdot N (pcross w v) * pz u + pdot N (pcross u w) * pz v + pdot N w * pz N)).
  { unfold N, tri_normal. fold u v. generalize u v w. intros u' v' w'. unfold pscale, pdot, pcross; cbn [px py pz]. f_equal; ring. }
  assert (Zw : pdot N w = 0) by (apply HP; exact Hp). rewrite Zw in W. pose proof (f_equal px W) as W1. pose proof (f_equal py W) as W2. pose proof (f_equal pz W) as W3.
  unfold pscale in W1, W2, W3. cbn [px py pz] in W1, W2, W3.
  assert (V1 : px w = s * px u + t * px v) by (apply Rmult_eq_reg_l with (pdot N N); [| exact Nn]; rewrite W1; unfold s, t; field; exact Nn).
  assert (V2 : py w = s * py u + t * py v) by (apply Rmult_eq_reg_l with (pdot N N); [| exact Nn]; rewrite W2; unfold s, t; field; exact Nn).
  assert (V3 : pz w = s * pz u + t * pz v) by (apply Rmult_eq_reg_l with (pdot N N); [| exact Nn]; rewrite W3; unfold s, t; field; exact Nn).
  assert (Xp : X (sv p) - X (sv a) = s * x1 + t * x2).
  { unfold x1, x2, sv, transform. destruct f as [[vx vy] vz]. cbn [v2D px py pz].
    transitivity (px vx * px w + px vy * py w + px vz * pz w); [unfold w, psub; cbn [px py pz]; ring |]. rewrite V1, V2, V3. unfold u, v, psub; cbn [px py pz]; ring. }
  assert (Yp : Y (sv p) - Y (sv a) = s * y1 + t * y2).
  { unfold y1, y2, sv, transform. destruct f as [[vx vy] vz]. cbn [v2D px py pz].
    transitivity (py vx * px w + py vy * py w + py vz * pz w); [unfold w, psub; cbn [px py pz]; ring |]. rewrite V1, V2, V3. unfold u, v, psub; cbn [px py pz]; ring. }
  assert (Gp : reach gx gy gz p = reach gx gy gz a + s * g1 + t * g2).
  { transitivity (reach gx gy gz a + reach gx gy gz w); [unfold reach, w, psub; cbn [px py pz]; ring |]. unfold reach at 2. rewrite V1, V2, V3. unfold g1, g2, reach. ring. }
  rewrite Gp. unfold lin.
  instantiate (1 := reach gx gy gz a - ((g1 * y2 - g2 * y1) / (x1 * y2 - y1 * x2) * X (sv a) + (g2 * x1 - g1 * x2) / (x1 * y2 - y1 * x2) * Y (sv a))).
  replace (X (sv p)) with (X (sv a) + (s * x1 + t * x2)) by lra. replace (Y (sv p)) with (Y (sv a) + (s * y1 + t * y2)) by lra. field. exact Det.
Qed.

Lemma two_ends {A} (l : list A) : (2 <= length l)%nat -> exists x m y, l = x :: m ++ [y].
Proof.
  destruct l as [| x l]; cbn [length]; [lia |]. intros H. destruct (@exists_last _ l) as (m & y & ->); [destruct l; [cbn in H; lia | easy] |]. now exists x, m, y.
Qed.

Lemma hull_in_plane : is_hull (pscale (pz (transform f N)) N) pts (convex_hull pts).
Proof.
  assert (Ia : In a pts) by now left. assert (Ib : In b pts) by (right; now left). assert (Ic : In c pts) by (right; right; now left).
  set (l := sv_sort (map sv pts)).
  assert (EH : convex_hull pts = map v3D (hull_cycle l)) by reflexivity.
  assert (Il : forall s, In s l <-> exists p, s = sv p /\ In p pts).
  { intros s. split.
    - intros H. apply (Permutation_in _ (Permutation_sym (sv_sort_perm _))) in H. apply in_map_iff in H. destruct H as (p & <- & H). now exists p.
    - intros (p & -> & H). apply (Permutation_in _ (sv_sort_perm _)). now apply in_map. }
  assert (Sl : StronglySorted (lx 1) l) by (apply sv_sort_sorted, sv_pairs; [auto | exact HD]).
  destruct (two_ends l) as (s0 & mid & sl & El).
  { unfold l. rewrite <- (Permutation_length (sv_sort_perm _)), map_length. cbn. lia. }
  assert (TN : turn (sv a) (sv b) (sv c) <> 0).
  { assert (E := turn_in_plane a b c Ia Ib Ic). intros Z. rewrite Z, Rmult_0_r in E. symmetry in E. change (pcross (psub b a) (psub c a)) with N in E.
    apply Rmult_integral in E. destruct E as [E | E]; [exact (HT E) | lra]. }
  change (s0 :: mid ++ [sl]) with (all s0 sl mid) in El. rewrite El in Sl.
  destruct (cycle_ok s0 sl mid Sl) as (C1 & C2 & C3 & C4).
  { exists (sv a), (sv b), (sv c). rewrite <- El. repeat split; [apply Il; eauto .. | exact TN]. }
  rewrite <- El in C1, C2, C3, C4. set (h := hull_cycle l) in *. rewrite EH.
  assert (Ih : forall s, In s h -> s = sv (v3D s) /\ In (v3D s) pts).
  { intros s Hs. apply C1, Il in Hs. destruct Hs as (p & -> & Hp). auto. }
  assert (H1 : forall q, In q (map v3D h) -> In q pts).
  { intros q Q. apply in_map_iff in Q. destruct Q as (s & <- & Hs). now apply Ih. }
  assert (H2 : NoDup (map v3D h)).
  { clear - C2 Ih. induction C2 as [| s h Hs C2 IH]; cbn [map]; [constructor |]. constructor; [| apply IH; intros; apply Ih; now right].
    intros H. apply in_map_iff in H. destruct H as (t & E & Ht). apply Hs. destruct (Ih s (or_introl eq_refl)) as [-> _]. destruct (Ih t (or_intror Ht)) as [-> _] in Ht.
    now rewrite <- E. }
  assert (H4 : forall p q r, follows (map v3D h) p q -> In r pts -> pdot (pscale (pz (transform f N)) N) (pcross (psub q p) (psub r p)) <= 0).
  { intros p q r F Hr.
    assert (F' : follows h (sv p) (sv q) /\ In p pts /\ In q pts).
    { destruct F as [(l1 & m & F) | (m & F)].
      - apply map_eq_app in F. destruct F as (l2 & t & E & _ & F). destruct t as [| s [| s' t]]; cbn [map] in F; [easy | easy |]. injection F as <- <- _.
        destruct (Ih s) as [E1 P1]; [rewrite E; apply in_or_app; right; now left |]. destruct (Ih s') as [E2 P2]; [rewrite E; apply in_or_app; right; right; now left |].
        rewrite <- E1, <- E2. split; [left; eauto | auto].
      - destruct h as [| s h']; cbn [map] in F; [easy |]. injection F as <- F. apply map_eq_app in F. destruct F as (l2 & t & E & _ & F).
        destruct t as [| s' t]; cbn [map] in F; [easy |]. injection F as <- F. apply map_eq_nil in F. subst t.
        destruct (Ih s) as [E1 P1]; [now left |]. destruct (Ih s') as [E2 P2]; [rewrite E; right; apply in_or_app; right; now left |].
        rewrite <- E1, <- E2. split; [right; exists l2; now rewrite E | auto]. }
    destruct F' as (F' & P1 & Q1). pose proof (C3 (sv p) (sv q) (sv r) F') as T. specialize (T (proj2 (Il _) (ex_intro _ r (conj eq_refl Hr)))).
    rewrite pdot_pscale.
    rewrite <- turn_in_plane by assumption. assert (0 <= pdot N N * - turn (sv p) (sv q) (sv r)) by (apply Rmult_le_pos; lra). lra. }
  assert (H5 : forall gx gy gz p, In p pts -> exists q, In q (map v3D h) /\ reach gx gy gz p <= reach gx gy gz q).
  { intros gx gy gz p Hp. destruct (reach_projected gx gy gz) as (al & be & d & E). destruct (C4 al be (sv p)) as (s & Hs & L); [apply Il; eauto |].
    destruct (Ih s Hs) as [E1 P1]. exists (v3D s). split; [now apply in_map |]. rewrite !E by assumption. rewrite <- E1. lra. }
  assert (H3 : (3 <= length (map v3D h))%nat).
  { destruct (map v3D h) as [| e [| g [| g' h']]] eqn:Eh; [exfalso | exfalso | exfalso | exact (le_n_S _ _ (le_n_S _ _ (le_n_S _ _ (Nat.le_0_l _))))].
    - destruct (H5 0 0 0 a Ia) as (q & [] & _).
    - assert (Same : forall p, In p pts -> p = e).
      { intros p Hp. assert (L : forall gx gy gz, reach gx gy gz p <= reach gx gy gz e) by (intros gx gy gz; destruct (H5 gx gy gz p Hp) as (q & [<- | []] & L); exact L).
        pose proof (L 1 0 0). pose proof (L (-1) 0 0). pose proof (L 0 1 0). pose proof (L 0 (-1) 0). pose proof (L 0 0 1). pose proof (L 0 0 (-1)).
        unfold reach in *. apply pt_eq; lra. }
      inversion_clear HD as [| ? ? Hn _]. apply Hn. left. now rewrite (Same a Ia), (Same b Ib).
    - set (n' := pscale (pz (transform f N)) N) in *.
      assert (F1 : follows [e; g] e g) by (left; now exists [], []). assert (F2 : follows [e; g] g e) by (right; now exists []).
      assert (Ie : In e pts) by (apply H1; now left). assert (Ig : In g pts) by (apply H1; right; now left).
      assert (Z : forall p, In p pts -> turn (sv e) (sv g) (sv p) = 0).
      { intros p Hp. pose proof (H4 e g p F1 Hp) as A. pose proof (H4 g e p F2 Hp) as B.
        assert (Cx : pdot n' (pcross (psub e g) (psub p g)) = - pdot n' (pcross (psub g e) (psub p e))) by (unfold pdot, pcross, psub; cbn [px py pz]; ring).
        assert (A0 : pdot n' (pcross (psub g e) (psub p e)) = 0) by lra.
        apply Rmult_eq_reg_l with (pdot N N); [| lra]. rewrite Rmult_0_r, turn_in_plane by assumption. rewrite <- A0. unfold n', pdot, pscale; cbn [px py pz]. ring. }
      assert (De : X (sv e) <> X (sv g) \/ Y (sv e) <> Y (sv g)).
      { apply project_apart; [assumption | assumption |]. intros ->. inversion_clear H2 as [| ? ? Hn _]. apply Hn. now left. }
      apply TN. pose proof (Z a Ia) as Za. pose proof (Z b Ib) as Zb. pose proof (Z c Ic) as Zc. rewrite turn_eq in *.
      set (ux := X (sv g) - X (sv e)) in *. set (uy := Y (sv g) - Y (sv e)) in *.
      set (e2x := X (sv b) - X (sv a)) in *. set (e2y := Y (sv b) - Y (sv a)) in *. set (e3x := X (sv c) - X (sv a)) in *. set (e3y := Y (sv c) - Y (sv a)) in *.
      assert (G2 : ux * e2y - uy * e2x = 0) by (unfold e2x, e2y; lra). assert (G3 : ux * e3y - uy * e3x = 0) by (unfold e3x, e3y; lra).
      assert (K1 : ux * (e2x * e3y - e2y * e3x) = 0).
      { replace (ux * (e2x * e3y - e2y * e3x)) with (e2x * (ux * e3y - uy * e3x) - e3x * (ux * e2y - uy * e2x)) by ring. rewrite G2, G3. ring. }
      assert (K2 : uy * (e2x * e3y - e2y * e3x) = 0).
      { replace (uy * (e2x * e3y - e2y * e3x)) with (e2y * (ux * e3y - uy * e3x) - e3y * (ux * e2y - uy * e2x)) by ring. rewrite G2, G3. ring. }
      apply Rmult_integral in K1. apply Rmult_integral in K2. destruct K1 as [K1 | K1]; [| exact K1]. destruct K2 as [K2 | K2]; [| exact K2].
      exfalso. unfold ux, uy in *. destruct De as [De | De]; apply De; lra. }
  constructor; assumption.
Qed.
End Plane.

Lemma is_hull_scale k n pts h : 0 < k -> is_hull (pscale k n) pts h -> is_hull n pts h.
Proof.
  intros Hk [H1 H2 H3 H4 H5]. constructor; [assumption | assumption | assumption | | assumption]. intros a b p F Hp. specialize (H4 a b p F Hp).
  rewrite pdot_pscale in H4. apply Rmult_le_reg_l with k; lra.
Qed.
Lemma unit_of vx vy vz : pcross vx vy = vz -> pcross vy vz = vx -> pcross vz vx = vy -> 0 < pdot vz vz -> pdot vx vx = 1 /\ pdot vy vy = 1 /\ pdot vz vz = 1.
Proof.
  intros H1 H2 H3 Hz.
  assert (A : pdot vx vx = pdot vz vz) by (rewrite <- H1 at 1; rewrite <- H2 at 1; unfold pdot, pcross; cbn [px py pz]; ring).
  assert (B : pdot vy vy = pdot vz vz) by (rewrite <- H1 at 1; rewrite <- H3 at 1; unfold pdot, pcross; cbn [px py pz]; ring).
  assert (O : pdot vx vy = 0) by (rewrite <- H2 at 1; unfold pdot, pcross; cbn [px py pz]; ring).
  assert (C : pdot vz vz = pdot vx vx * pdot vy vy - pdot vx vy * pdot vx vy) by (rewrite <- H1 at 1 2; unfold pdot, pcross; cbn [px py pz]; ring).
  rewrite A, B, O in C. assert (D : pdot vz vz = 1) by (apply Rmult_eq_reg_l with (pdot vz vz); lra). lra.
Qed.

(** For distinct points at one height, the first three not in line, the result is their convex hull, gone round clockwise (seen from above) if the
    first three points turn anticlockwise and anticlockwise otherwise. *)
Theorem C101_hull : forall a b c rest, let pts := a :: b :: c :: rest in
  NoDup pts -> (forall p, In p pts -> pz p = pz a) -> area2 a b c <> 0 -> is_hull (P 0 0 (area2 a b c)) pts (convex_hull pts).
Proof.
  intros a b c rest pts HD Hz HA.
  assert (Eb : pz b = pz a) by (apply Hz; right; now left). assert (Ec : pz c = pz a) by (apply Hz; right; right; now left).
  assert (EN : tri_normal a b c = P 0 0 (area2 a b c)).
  { unfold tri_normal, pcross, psub, area2; cbn [px py pz]. rewrite Eb, Ec. f_equal; ring. }
  assert (HN : 0 < pdot (tri_normal a b c) (tri_normal a b c)).
  { rewrite EN. unfold pdot; cbn [px py pz]. pose proof (Rsqr_pos_lt _ HA) as K. unfold Rsqr in K. lra. }
  destruct (hull_frame a b c HN) as (vx & vy & vz & k & Ef & H1 & H2 & H3 & Hk & Hv).
  assert (Vx : px vz = 0) by (rewrite EN in Hv; apply (f_equal px) in Hv; cbn in Hv; symmetry in Hv; apply Rmult_integral in Hv; destruct Hv; lra).
  assert (Vy : py vz = 0) by (rewrite EN in Hv; apply (f_equal py) in Hv; cbn in Hv; symmetry in Hv; apply Rmult_integral in Hv; destruct Hv; lra).
  assert (T : pz (transform (frame a b c) (tri_normal a b c)) = k * (pz vz * pz vz)).
  { rewrite Ef, Hv. unfold transform, pscale; cbn [px py pz]. rewrite Vx, Vy. ring. }
  assert (Pz : 0 < pz vz * pz vz).
  { apply Rsqr_pos_lt. intros Z. rewrite EN in Hv. apply (f_equal pz) in Hv. cbn in Hv. rewrite Z, Rmult_0_r in Hv. exact (HA Hv). }
  assert (Pt : 0 < k * (pz vz * pz vz)) by now apply Rmult_lt_0_compat.
  apply is_hull_scale with (k := k * (pz vz * pz vz)); [exact Pt |]. rewrite <- T, <- EN. apply hull_in_plane; [exact HD | exact HN | | rewrite T; lra].
  intros p Hp. rewrite EN. unfold pdot, psub; cbn [px py pz]. rewrite (Hz p Hp). ring.
Qed.
Print Assumptions C101_hull.

(** In a tilted plane the same holds if the number below, which depends on the first three points only, is not zero; its sign gives the direction
    in which the hull is gone round. *)
Theorem C101_tilted : forall a b c rest, let pts := a :: b :: c :: rest in
  let u := psub b a in let n := pcross u (psub c a) in let w := pcross n u in
  let t := pz u / pnorm u * px n + pz w / pnorm w * py n + pz n / pnorm n * pz n in
  NoDup pts -> n <> P 0 0 0 -> (forall p, In p pts -> pdot n (psub p a) = 0) -> t <> 0 -> is_hull (pscale t n) pts (convex_hull pts).
Proof.
  intros a b c rest pts u n w t HD Hn HP Ht.
  assert (HN : 0 < pdot (tri_normal a b c) (tri_normal a b c)).
  { destruct (pdot_pos (tri_normal a b c)) as [H | H]; [exact H | exfalso]. symmetry in H. apply pdot_zero in H. exact (Hn H). }
  destruct (hull_frame a b c HN) as (vx & vy & vz & k & Ef & H1 & H2 & H3 & Hk & Hv).
  change (tri_normal a b c) with n in *.
  assert (Hu : 0 < pdot u u).
  { destruct (pdot_pos u) as [H | H]; [exact H | exfalso]. symmetry in H. apply pdot_zero in H. apply Hn. unfold n. rewrite H. unfold pcross; cbn [px py pz]. f_equal; ring. }
  assert (Hvz : 0 < pdot vz vz).
  { destruct (pdot_pos vz) as [H | H]; [exact H | exfalso]. symmetry in H. apply pdot_zero in H. apply Hn. rewrite Hv, H. unfold pscale; cbn [px py pz]. f_equal; ring. }
  destruct (unit_of vx vy vz H1 H2 H3 Hvz) as (Ux & Uy & Uz).
  assert (Lu := pnorm_pos u Hu).
  assert (Ex : u = pscale (pnorm u) vx).
  { assert (E : vx = pnormalize u) by (unfold frame in Ef; fold u in Ef; injection Ef as Ef1 _ _; now rewrite <- Ef1). rewrite E. apply normalize_spec, Hu. }
  assert (Ln : pnorm n = k) by (apply pnorm_unique; [lra |]; rewrite Hv; unfold pdot, pscale; cbn [px py pz]; transitivity (k * k * pdot vz vz); [rewrite Uz; ring | unfold pdot; ring]).
  assert (Ew : w = pscale (k * pnorm u) vy).
  { unfold w. rewrite Hv. rewrite Ex at 1. rewrite <- H3. unfold pcross, pscale; cbn [px py pz]. f_equal; ring. }
  assert (Lw : pnorm w = k * pnorm u).
  { apply pnorm_unique; [apply Rmult_le_pos; lra |]. rewrite Ew. unfold pdot, pscale; cbn [px py pz]. transitivity (k * pnorm u * (k * pnorm u) * pdot vy vy); [rewrite Uy; ring | unfold pdot; ring]. }
  assert (T : pz (transform (frame a b c) n) = t).
  { rewrite Ef. unfold t. rewrite Lw, Ln.
    replace (pz u / pnorm u) with (pz vx) by (apply (f_equal pz) in Ex; unfold pscale in Ex; cbn [px py pz] in Ex; rewrite Ex; field; lra).
    replace (pz w / (k * pnorm u)) with (pz vy) by (apply (f_equal pz) in Ew; unfold pscale in Ew; cbn [px py pz] in Ew; rewrite Ew; field; lra).
    replace (pz n / k) with (pz vz) by (apply (f_equal pz) in Hv; unfold pscale in Hv; cbn [px py pz] in Hv; rewrite Hv; field; lra).
    reflexivity. }
  rewrite <- T in *. apply hull_in_plane; assumption.
Qed.
Print Assumptions C101_tilted.

(** Fewer than three points give no hull, and a call of set() adds to the vertices already there. *)
Theorem C101_set : forall old pts, hull_set old pts = old ++ convex_hull pts /\ ((length pts < 3)%nat -> convex_hull pts = []).
Proof.
  intros old pts. destruct pts as [| a [| b [| c pts]]]; cbn [length]; (split; [unfold convex_hull, hull_set; now rewrite ?app_nil_r | intros H; reflexivity || (exfalso; lia)]).
Qed.
Print Assumptions C101_set.

(** Evaluation on given points. *)
Ltac decide_r := repeat match goal with
  | |- context [Rlt_dec ?x ?y] => destruct (Rlt_dec x y); [try (exfalso; lra) | try (exfalso; lra)]
  | |- context [Req_EM_T ?x ?y] => destruct (Req_EM_T x y); [try (exfalso; lra) | try (exfalso; lra)]
  end.
Ltac eval_sort := cbn [map fold_right sv_sort sv_insert]; unfold sv_lt; cbn [v2D px py]; repeat (decide_r; cbn [sv_insert]; unfold sv_lt; cbn [v2D px py]).
Lemma push_keep a b r p : turn a b p <= 0 -> hull_push (b :: a :: r) p = p :: b :: a :: r.
Proof. intros H. unfold hull_push. cbn [unwind]. destruct (Rle_dec (turn a b p) 0); [reflexivity | contradiction]. Qed.
Lemma push_drop a b r p : 0 < turn a b p -> hull_push (b :: a :: r) p = hull_push (a :: r) p.
Proof. intros H. unfold hull_push. cbn [unwind]. destruct (Rle_dec (turn a b p) 0); [lra | reflexivity]. Qed.
Lemma push_one b p : hull_push [b] p = [p; b]. Proof. reflexivity. Qed.
Lemma push_none p : hull_push [] p = [p]. Proof. reflexivity. Qed.
Ltac turned := rewrite turn_eq; cbn [v2D px py]; lra.
Ltac eval_pass := cbn [fold_left rev app]; repeat first [rewrite push_none | rewrite push_one | rewrite push_keep by turned | rewrite push_drop by turned].

Lemma flat_frame y : 0 < y -> forall x, frame (P 0 0 0) (P 1 0 0) (P x y 0) = (P 1 0 0, P 0 1 0, P 0 0 1).
Proof.
  intros Hy x. unfold frame.
  assert (E1 : pnormalize (psub (P 1 0 0) (P 0 0 0)) = P 1 0 0).
  { unfold pnormalize, pnorm. replace (pdot (psub (P 1 0 0) (P 0 0 0)) (psub (P 1 0 0) (P 0 0 0))) with 1 by (unfold pdot, psub; cbn [px py pz]; ring).
    destruct (Rlt_dec 0 1); [| exfalso; lra]. rewrite sqrt_1. unfold pscale, psub; cbn [px py pz]. f_equal; field. }
  rewrite E1.
  assert (E2 : pnormalize (pcross (P 1 0 0) (psub (P x y 0) (P 0 0 0))) = P 0 0 1).
  { unfold pnormalize, pnorm. replace (pdot _ _) with (y * y) by (unfold pdot, psub, pcross; cbn [px py pz]; ring).
    destruct (Rlt_dec 0 (y * y)) as [| H]; [| exfalso; apply H; now apply Rmult_lt_0_compat]. rewrite sqrt_square by lra. unfold pscale, psub, pcross; cbn [px py pz]. f_equal; field; lra. }
  rewrite E2.
  assert (E3 : pnormalize (pcross (P 0 0 1) (P 1 0 0)) = P 0 1 0).
  { unfold pnormalize, pnorm. replace (pdot _ _) with 1 by (unfold pdot, psub, pcross; cbn [px py pz]; ring).
    destruct (Rlt_dec 0 1); [| exfalso; lra]. rewrite sqrt_1. unfold pscale, pcross; cbn [px py pz]. f_equal; field. }
  now rewrite E3.
Qed.
Lemma identity p : transform (P 1 0 0, P 0 1 0, P 0 0 1) p = p.
Proof. unfold transform. destruct p as [x y z]; cbn [px py pz]. f_equal; ring. Qed.
Definition sv1 p := SV p p.
Lemma hull_flat x y rest : 0 < y -> convex_hull (P 0 0 0 :: P 1 0 0 :: P x y 0 :: rest) = map v3D (hull_cycle (sv_sort (map sv1 (P 0 0 0 :: P 1 0 0 :: P x y 0 :: rest)))).
Proof.
  intros Hy. unfold convex_hull, hull_set. rewrite (flat_frame y Hy). cbn [app]. f_equal. f_equal. f_equal. apply map_ext. intros p. unfold sv1. now rewrite identity.
Qed.

(** A square with a point in the middle of it and one on a side: the corners and the point on the side are found. *)
Example C101_case : convex_hull [P 0 0 0; P 1 0 0; P 1 1 0; P (1/2) (1/2) 0; P 0 1 0; P (1/2) 1 0] = [P 0 0 0; P 0 1 0; P (1/2) 1 0; P 1 1 0; P 1 0 0].
Proof.
  rewrite hull_flat by lra. unfold sv1. cbn [map].
  assert (E : sv_sort [SV (P 0 0 0) (P 0 0 0); SV (P 1 0 0) (P 1 0 0); SV (P 1 1 0) (P 1 1 0); SV (P (1/2) (1/2) 0) (P (1/2) (1/2) 0); SV (P 0 1 0) (P 0 1 0); SV (P (1/2) 1 0) (P (1/2) 1 0)] =
     [SV (P 0 0 0) (P 0 0 0); SV (P 0 1 0) (P 0 1 0); SV (P (1/2) (1/2) 0) (P (1/2) (1/2) 0); SV (P (1/2) 1 0) (P (1/2) 1 0); SV (P 1 0 0) (P 1 0 0); SV (P 1 1 0) (P 1 1 0)]).
  { unfold sv_sort. eval_sort. reflexivity. }
  rewrite E. unfold hull_cycle, lower_pass, upper_pass. eval_pass. reflexivity.
Qed.

(** Strictly inside a triangle seen from above. *)
Definition inside (p a b c : pt) : Prop := 0 < area2 a b p /\ 0 < area2 b c p /\ 0 < area2 c a p.

(** A point given twice is returned though it lies strictly inside the triangle of three others: two equal entries on the stack are never removed. *)
Theorem C101_repeated_refuted : exists a b c p, pz a = 0 /\ pz b = 0 /\ pz c = 0 /\ pz p = 0 /\ inside p a b c /\ In p (convex_hull [a; b; c; p; p]).
Proof.
  exists (P 0 0 0), (P 1 0 0), (P 1 1 0), (P (1/2) (1/4) 0). do 4 (split; [reflexivity |]). split; [unfold inside, area2; cbn [px py]; lra |].
  rewrite hull_flat by lra. unfold sv1. cbn [map].
  assert (E : sv_sort [SV (P 0 0 0) (P 0 0 0); SV (P 1 0 0) (P 1 0 0); SV (P 1 1 0) (P 1 1 0); SV (P (1/2) (1/4) 0) (P (1/2) (1/4) 0); SV (P (1/2) (1/4) 0) (P (1/2) (1/4) 0)] =
     [SV (P 0 0 0) (P 0 0 0); SV (P (1/2) (1/4) 0) (P (1/2) (1/4) 0); SV (P (1/2) (1/4) 0) (P (1/2) (1/4) 0); SV (P 1 0 0) (P 1 0 0); SV (P 1 1 0) (P 1 1 0)]).
  { unfold sv_sort. eval_sort. reflexivity. }
  rewrite E. unfold hull_cycle, lower_pass, upper_pass. eval_pass. cbn. auto.
Qed.
Print Assumptions C101_repeated_refuted.

(** In a vertical plane the hull can be wrong: here the five distinct points of the wall x = 0 are all projected onto a line, because the matrix is
    not transposed, so the centre of the square is returned, even twice. *)
Theorem C101_vertical_refuted : let pts := [P 0 0 0; P 0 1 0; P 0 0 1; P 0 1 1; P 0 (1/2) (1/2)] in
  NoDup pts /\ (forall p, In p pts -> px p = 0) /\ In (P 0 (1/2) (1/2)) (convex_hull pts) /\ ~ NoDup (convex_hull pts).
Proof.
  intros pts.
  assert (D : forall a b, px a <> px b \/ py a <> py b \/ pz a <> pz b -> a <> b) by (intros a b H ->; destruct H as [H | [H | H]]; now apply H).
  split. { unfold pts. repeat constructor; cbn [In]; intros H; repeat (destruct H as [H | H]; [revert H; apply D; cbn [px py pz]; lra |]); exact H. }
  split. { unfold pts. cbn [In]. intros p H. repeat (destruct H as [<- | H]; [reflexivity |]). destruct H. }
  assert (EF : frame (P 0 0 0) (P 0 1 0) (P 0 0 1) = (P 0 1 0, P 0 0 1, P 1 0 0)).
  { assert (U : forall v, pdot v v = 1 -> pnormalize v = v).
    { intros v Hv. unfold pnormalize, pnorm. rewrite Hv, sqrt_1. destruct (Rlt_dec 0 1); [| reflexivity]. unfold pscale. destruct v as [x y z]; cbn [px py pz]. f_equal; field. }
    unfold frame.
    replace (psub (P 0 1 0) (P 0 0 0)) with (P 0 1 0) by (unfold psub; cbn [px py pz]; f_equal; ring).
    replace (psub (P 0 0 1) (P 0 0 0)) with (P 0 0 1) by (unfold psub; cbn [px py pz]; f_equal; ring).
    rewrite (U (P 0 1 0)) by (unfold pdot; cbn [px py pz]; ring).
    replace (pcross (P 0 1 0) (P 0 0 1)) with (P 1 0 0) by (unfold pcross; cbn [px py pz]; f_equal; ring).
    rewrite (U (P 1 0 0)) by (unfold pdot; cbn [px py pz]; ring).
    replace (pcross (P 1 0 0) (P 0 1 0)) with (P 0 0 1) by (unfold pcross; cbn [px py pz]; f_equal; ring).
    now rewrite (U (P 0 0 1)) by (unfold pdot; cbn [px py pz]; ring). }
  assert (EH : convex_hull pts = map v3D (hull_cycle (sv_sort (map (fun p => SV (P (pz p) (px p) (py p)) p) pts)))).
  { unfold convex_hull, hull_set, pts. rewrite EF. cbn [app]. f_equal. f_equal. f_equal. apply map_ext. intros p. f_equal. unfold transform; cbn [px py pz]. f_equal; ring. }
  assert (Es : sv_sort (map (fun p => SV (P (pz p) (px p) (py p)) p) pts) =
    [SV (P 0 0 0) (P 0 0 0); SV (P 0 0 1) (P 0 1 0); SV (P (1/2) 0 (1/2)) (P 0 (1/2) (1/2)); SV (P 1 0 0) (P 0 0 1); SV (P 1 0 1) (P 0 1 1)]).
  { unfold pts. cbn [map px py pz]. unfold sv_sort. eval_sort. reflexivity. }
  rewrite Es in EH. unfold hull_cycle, lower_pass, upper_pass in EH.
  assert (ER : convex_hull pts = [P 0 0 0; P 0 1 0; P 0 (1/2) (1/2); P 0 0 1; P 0 1 1; P 0 0 1; P 0 (1/2) (1/2); P 0 1 0]).
  { rewrite EH. eval_pass. reflexivity. }
  rewrite ER. split; [cbn; auto |]. intros N. inversion_clear N as [| ? ? _ N1]. inversion_clear N1 as [| ? ? _ N2]. inversion_clear N2 as [| ? ? N3 _]. apply N3. cbn; auto.
Qed.
Print Assumptions C101_vertical_refuted.

(** If the first three points are in line, the other points are projected onto that line: a point strictly inside is returned. *)
Theorem C101_in_line_refuted : let pts := [P 0 0 0; P 1 0 0; P 2 0 0; P 1 1 0; P 1 (1/2) 0] in
  inside (P 1 (1/2) 0) (P 0 0 0) (P 2 0 0) (P 1 1 0) /\ In (P 1 (1/2) 0) (convex_hull pts).
Proof.
  intros pts. split; [unfold inside, area2; cbn [px py]; lra |].
  assert (EF : frame (P 0 0 0) (P 1 0 0) (P 2 0 0) = (P 1 0 0, P 0 0 0, P 0 0 0)).
  { assert (Z : forall v, pdot v v = 0 -> pnormalize v = v) by (intros v Hv; unfold pnormalize; rewrite Hv; destruct (Rlt_dec 0 0); [lra | reflexivity]).
    unfold frame.
    replace (psub (P 1 0 0) (P 0 0 0)) with (P 1 0 0) by (unfold psub; cbn [px py pz]; f_equal; ring).
    replace (pnormalize (P 1 0 0)) with (P 1 0 0).
    2: { unfold pnormalize, pnorm. replace (pdot (P 1 0 0) (P 1 0 0)) with 1 by (unfold pdot; cbn [px py pz]; ring). rewrite sqrt_1. destruct (Rlt_dec 0 1); [| reflexivity].
         unfold pscale; cbn [px py pz]. f_equal; field. }
    replace (pcross (P 1 0 0) (psub (P 2 0 0) (P 0 0 0))) with (P 0 0 0) by (unfold pcross, psub; cbn [px py pz]; f_equal; ring).
    rewrite (Z (P 0 0 0)) by (unfold pdot; cbn [px py pz]; ring).
    replace (pcross (P 0 0 0) (P 1 0 0)) with (P 0 0 0) by (unfold pcross; cbn [px py pz]; f_equal; ring).
    now rewrite (Z (P 0 0 0)) by (unfold pdot; cbn [px py pz]; ring). }
  assert (EH : convex_hull pts = map v3D (hull_cycle (sv_sort (map (fun p => SV (P (px p) 0 0) p) pts)))).
  { unfold convex_hull, hull_set, pts. rewrite EF. cbn [app]. f_equal. f_equal. f_equal. apply map_ext. intros p. f_equal. unfold transform; cbn [px py pz]. f_equal; ring. }
  assert (Es : sv_sort (map (fun p => SV (P (px p) 0 0) p) pts) =
    [SV (P 0 0 0) (P 0 0 0); SV (P 1 0 0) (P 1 0 0); SV (P 1 0 0) (P 1 1 0); SV (P 1 0 0) (P 1 (1/2) 0); SV (P 2 0 0) (P 2 0 0)]).
  { unfold pts. cbn [map px py pz]. unfold sv_sort. eval_sort. reflexivity. }
  rewrite EH, Es. unfold hull_cycle, lower_pass, upper_pass. eval_pass. cbn. auto 10.
Qed.
Print Assumptions C101_in_line_refuted.

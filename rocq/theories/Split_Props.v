(** C91: splitting the facets of a surface. *)
From Coq Require Import ZArith List Bool QArith Reals Qreals Lia Lra Psatz.
From Verif Require Import Prelude Vec ZMap Mesh_Proofs Surf_Model Surf_Spec Surf_Proofs Split_Proofs.
Import ListNotations.
Open Scope Z_scope.
Ltac Zify.zify_post_hook ::= Z.div_mod_to_equations.

(** ** Vocabulary *)
Definition total (phi : coord -> coord -> coord -> R) (s : surf) : R := fold_right Rplus 0%R (map (fun id => phi (corner s id 0) (corner s id 1) (corner s id 2)) (u_ids s)).
(** Area of a triangle; signed volume of the tetrahedron over a triangle with apex [o]. *)
Definition tri_area (a b c : coord) : R := (sqrt (Q2R (norm2 (cross (vsub b a) (vsub c a)))) / 2)%R.
Definition tet_volume (o a b c : coord) : R := (Q2R (dot (vsub a o) (cross (vsub b o) (vsub c o))) / 6)%R.
Definition facet_area (s : surf) (id : Z) : R := tri_area (corner s id 0) (corner s id 1) (corner s id 2).
Definition distance (a b : coord) : R := sqrt (Q2R (norm2 (vsub b a))).
(** The directed boundary edges. *)
Definition rim (s : surf) (x y : coord) : Prop := exists id k, In id (u_ids s) /\ free s id k /\ corner s id k =v= x /\ corner s id (k + 1) =v= y.
(** A point of a triangle. *)
Definition within (a b c p : coord) : Prop := exists x y z : Q, (0 <= x /\ 0 <= y /\ 0 <= z /\ x + y + z == 1)%Q /\ p =v= vadd (vscale x a) (vadd (vscale y b) (vscale z c)).
(** Every facet of [s'] is part of a facet of [s]. *)
Definition refines (s s' : surf) : Prop := forall id, In id (u_ids s') -> exists id0, In id0 (u_ids s) /\ forall k, within (corner s id0 0) (corner s id0 1) (corner s id0 2) (corner s' id k).

(** ** Sums over facets *)
Fixpoint rsum (l : list Z) (f : Z -> R) : R := match l with [] => 0%R | x :: r => (f x + rsum r f)%R end.
Lemma total_rsum phi s : total phi s = rsum (u_ids s) (fun id => phi (corner s id 0) (corner s id 1) (corner s id 2)).
Proof. unfold total. induction (u_ids s) as [|x l IH]; [reflexivity|]. cbn [map fold_right rsum]. now rewrite IH. Qed.
Lemma rsum_app l l' f : rsum (l ++ l') f = (rsum l f + rsum l' f)%R.
Proof. induction l as [|x l IH]; cbn; [lra|]. rewrite IH. lra. Qed.
Lemma rsum_ext l f f' : (forall x, In x l -> f x = f' x) -> rsum l f = rsum l f'.
Proof. induction l as [|x l IH]; intros H; [reflexivity|]. cbn. rewrite (H x (or_introl eq_refl)), IH; [reflexivity|]. intros; apply H; now right. Qed.
Lemma rsum_upd l i f f' : NoDup l -> In i l -> (forall x, In x l -> x <> i -> f' x = f x) -> rsum l f' = (rsum l f - f i + f' i)%R.
Proof.
  induction l as [|x l IH]; intros N I H; [destruct I|]. inversion N as [|? ? Nx N']; subst. cbn. destruct (Z.eq_dec x i) as [->|E].
  - rewrite (rsum_ext l f' f); [lra|]. intros y Hy. apply H; [now right|]. intros ->. contradiction.
  - destruct I as [->|I]; [contradiction|]. rewrite (IH N' I); [|intros y Hy; apply H; now right]. rewrite (H x (or_introl eq_refl) E). lra.
Qed.
Lemma rsum_upd2 l i j f f' : NoDup l -> In i l -> In j l -> i <> j -> (forall x, In x l -> x <> i -> x <> j -> f' x = f x) -> rsum l f' = (rsum l f - f i + f' i - f j + f' j)%R.
Proof.
  intros N I J E H. set (h := fun x => if x =? i then f' i else f x). rewrite (rsum_upd l j h f' N J).
  - rewrite (rsum_upd l i f h N I); [unfold h; rewrite Z.eqb_refl; destruct (Z.eqb_spec j i); [congruence|lra]|]. intros x Hx Ne. unfold h. destruct (Z.eqb_spec x i); [contradiction|reflexivity].
  - intros x Hx Ne. unfold h. destruct (Z.eqb_spec x i) as [->|]; [reflexivity|]. now apply H.
Qed.
Lemma rsum_nonneg l f : (forall x, In x l -> 0 <= f x)%R -> (0 <= rsum l f)%R.
Proof. induction l as [|x l IH]; intros H; cbn; [lra|]. assert (A := H x (or_introl eq_refl)). assert (B := IH (fun y Hy => H y (or_intror Hy))). lra. Qed.
Definition cyclic (phi : coord -> coord -> coord -> R) : Prop := (forall a b c, phi a b c = phi b c a) /\ (forall a b c a' b' c', a =v= a' -> b =v= b' -> c =v= c' -> phi a b c = phi a' b' c').
Lemma cyclic_at phi s id k : cyclic phi -> phi (corner s id 0) (corner s id 1) (corner s id 2) = phi (corner s id k) (corner s id (k + 1)) (corner s id (k + 2)).
Proof.
  intros [C _]. destruct (tget_cases k) as [E|[E|E]].
  - now rewrite (corner_mod s id k 0), (corner_mod s id (k + 1) 1), (corner_mod s id (k + 2) 2) by lia.
  - rewrite (corner_mod s id k 1), (corner_mod s id (k + 1) 2), (corner_mod s id (k + 2) 0) by lia. apply C.
  - rewrite (corner_mod s id k 2), (corner_mod s id (k + 1) 0), (corner_mod s id (k + 2) 1) by lia. now rewrite C, C.
Qed.

(** ** What one cut does *)
Record cut (s s' : surf) (n : nat) (i b v g : Z) (fr : Q) : Prop := {
  c_ids : u_ids s' = zrange (n + 2);
  c_glued : glued s';
  c_rim : forall x y, rim s x y <-> rim s' x y;
  c_g : 0 <= g < Z.of_nat n /\ g <> i;
  c_g1 : corner s g (v + 1) =v= corner s i (b + 1);
  c_g2 : corner s g (v + 2) =v= corner s i b;
  c_i0 : corner s' i b = corner s i b; c_i1 : corner s' i (b + 1) = cut_point s i b fr; c_i2 : corner s' i (b + 2) = corner s i (b + 2);
  c_v0 : corner s' g v = corner s g v; c_v1 : corner s' g (v + 1) = cut_point s i b fr; c_v2 : corner s' g (v + 2) = corner s g (v + 2);
  c_n0 : corner s' (Z.of_nat n) 0 = cut_point s i b fr; c_n1 : corner s' (Z.of_nat n) 1 = corner s i (b + 1); c_n2 : corner s' (Z.of_nat n) 2 = corner s i (b + 2);
  c_m0 : corner s' (Z.of_nat n + 1) 0 = cut_point s i b fr; c_m1 : corner s' (Z.of_nat n + 1) 1 = corner s g v; c_m2 : corner s' (Z.of_nat n + 1) 2 = corner s i (b + 1);
  c_rest : forall id k, 0 <= id < Z.of_nat n -> id <> i -> id <> g -> corner s' id k = corner s id k;
  c_links : forall id k, 0 <= id < Z.of_nat n -> id <> i -> id <> g -> (across s' id k = -1 <-> across s id k = -1) }.
Lemma split_cut s n i choice : glued s -> u_ids s = zrange n -> 0 <= i < Z.of_nat n ->
  (exists b fr, choice (facet s i) = Some (b, fr) /\ exists s', split_at choice s i = Ok s' /\ across s i b <> -1 /\ cut s s' n i b (apart s i b) (across s i b) fr) \/
  (split_at choice s i = Ok s /\ forall b fr, choice (facet s i) = Some (b, fr) -> across s i b = -1).
Proof.
  intros G Ei Hi. assert (Ii : In i (u_ids s)) by (rewrite Ei, zrange_in; exact Hi). assert (St : stored s i) by (apply well_stored_in; [apply G|exact Ii]).
  assert (U : u_id s i = Ok i). { unfold u_id. rewrite Ei. unfold vec_at. destruct (Z.ltb_spec i 0); [lia|]. unfold zrange. rewrite nth_error_map, (nth_error_nth' _ 0%nat) by (rewrite seq_length; lia). rewrite seq_nth by lia. cbn. f_equal. lia. }
  destruct (choice (facet s i)) as [[b fr]|] eqn:C.
  2: { right. split; [|discriminate]. unfold split_at. rewrite U. cbn [bind]. rewrite (u_get_stored s i St). cbn [bind]. now rewrite C. }
  destruct (proj2 G i b Ii) as [[F1 F2]|(nb & l & L & O)].
  { right. split; [|intros b' fr' [= <- <-]; exact F1]. unfold split_at. rewrite U. cbn [bind]. rewrite (u_get_stored s i St). cbn [bind]. rewrite C. change (tget (sf_vn (facet s i)) b) with (apart s i b). rewrite F2. reflexivity. }
  left. exists b, fr. split; [reflexivity|]. destruct L as (L1 & L2 & L3 & L4 & L5 & L6). assert (Hv : 0 <= apart s i b <= 2) by lia.
  destruct (split_runs s n i b _ _ fr G Ei Hi eq_refl eq_refl Hv choice C) as (s' & E & I' & W' & K' & C').
  destruct (main_link s n i b _ _ G Ei Hi eq_refl eq_refl Hv) as (_ & (O1 & O2) & Bg & Ng). exists s'. split; [exact E|]. split; [lia|]. set (g := across s i b) in *. set (v := apart s i b) in *.
  assert (Hi1 : i <> Z.of_nat n) by lia. assert (Hi2 : i <> Z.of_nat n + 1) by lia.
  constructor; try (rewrite C'; unfold cut_corner).
  - exact I'.
  - apply (split_glued s n i b v g fr G Ei Hi eq_refl eq_refl Hv s' I' W' K' C').
  - intros x y. apply (split_rim s n i b v g fr G Ei Hi eq_refl eq_refl Hv s' I' K' C').
  - auto.
  - exact O1.
  - replace (v + 2) with (v + 1 + 1) by lia. exact O2.
  - destruct (Z.eqb_spec i (Z.of_nat n + 1)); [lia|]. rewrite he_false by (intros [? ?]; lia). destruct (Z.eqb_spec i (Z.of_nat n)); [lia|]. now rewrite he_false by (intros [? ?]; lia).
  - destruct (Z.eqb_spec i (Z.of_nat n + 1)); [lia|]. rewrite he_false by (intros [? ?]; lia). destruct (Z.eqb_spec i (Z.of_nat n)); [lia|]. now rewrite he_true by lia.
  - destruct (Z.eqb_spec i (Z.of_nat n + 1)); [lia|]. rewrite he_false by (intros [? ?]; lia). destruct (Z.eqb_spec i (Z.of_nat n)); [lia|]. now rewrite he_false by (intros [? ?]; lia).
  - destruct (Z.eqb_spec g (Z.of_nat n + 1)); [lia|]. rewrite he_false by (intros [? ?]; lia). destruct (Z.eqb_spec g (Z.of_nat n)); [lia|]. now rewrite he_false by (intros [? ?]; lia).
  - destruct (Z.eqb_spec g (Z.of_nat n + 1)); [lia|]. now rewrite he_true by lia.
  - destruct (Z.eqb_spec g (Z.of_nat n + 1)); [lia|]. rewrite he_false by (intros [? ?]; lia). destruct (Z.eqb_spec g (Z.of_nat n)); [lia|]. now rewrite he_false by (intros [? ?]; lia).
  - destruct (Z.eqb_spec (Z.of_nat n) (Z.of_nat n + 1)); [lia|]. rewrite he_false by (intros [? ?]; lia). rewrite Z.eqb_refl. reflexivity.
  - destruct (Z.eqb_spec (Z.of_nat n) (Z.of_nat n + 1)); [lia|]. rewrite he_false by (intros [? ?]; lia). rewrite Z.eqb_refl. reflexivity.
  - destruct (Z.eqb_spec (Z.of_nat n) (Z.of_nat n + 1)); [lia|]. rewrite he_false by (intros [? ?]; lia). rewrite Z.eqb_refl. reflexivity.
  - rewrite Z.eqb_refl. reflexivity.
  - rewrite Z.eqb_refl. reflexivity.
  - rewrite Z.eqb_refl. reflexivity.
  - intros id k H N1 N2. rewrite C'. unfold cut_corner. destruct (Z.eqb_spec id (Z.of_nat n + 1)); [lia|]. rewrite he_false by (intros [? ?]; lia). destruct (Z.eqb_spec id (Z.of_nat n)); [lia|]. now rewrite he_false by (intros [? ?]; lia).
  - intros id k H N1 N2. change (fst (link s' id k) = -1 <-> fst (link s id k) = -1). rewrite K'. assert (Mv : moved n i b v g id k = (id, k)) by (unfold moved; rewrite !he_false by (intros [? ?]; lia); reflexivity).
    destruct (pair s n G Ei id k H) as [Q|(nb' & l' & B' & Ne' & _ & Q & Q')].
    + assert (X := cut_free s n i b v g G Ei Hi eq_refl eq_refl Hv id k H Q). rewrite Mv in X. cbn [fst snd] in X. rewrite X, Q. tauto.
    + assert (X := cut_pair s n i b v g G Ei Hi eq_refl eq_refl Hv id k nb' l' H B' Ne' Q Q'). rewrite Mv in X. cbn [fst snd] in X. rewrite X, Q. cbn [fst]. assert (Y := moved_range s n i b v g fr Hi s' K' C' nb' l' B'). lia.
Qed.
Lemma cut_total phi s s' n i b v g fr : cyclic phi -> u_ids s = zrange n -> 0 <= i < Z.of_nat n -> cut s s' n i b v g fr ->
  let q := cut_point s i b fr in let p0 := corner s i b in let p1 := corner s i (b + 1) in let p2 := corner s i (b + 2) in let c := corner s g v in
  total phi s' = (total phi s - phi p0 p1 p2 + phi p0 q p2 + phi q p1 p2 - phi p1 p0 c + phi p1 q c + phi q p0 c)%R.
Proof.
  intros Cy Ei Hi K. destruct K. cbv zeta. rewrite !total_rsum, c_ids0. replace (n + 2)%nat with (Datatypes.S (Datatypes.S n)) by lia. rewrite !zrange_snoc, !rsum_app, Ei. cbn [rsum]. replace (Z.of_nat (Datatypes.S n)) with (Z.of_nat n + 1) by lia.
  rewrite (rsum_upd2 (zrange n) i g (fun id => phi (corner s id 0) (corner s id 1) (corner s id 2)) (fun id => phi (corner s' id 0) (corner s' id 1) (corner s' id 2))).
  - rewrite c_n3, c_n4, c_n5, c_m3, c_m4, c_m5. rewrite (cyclic_at phi s i b Cy), (cyclic_at phi s' i b Cy), (cyclic_at phi s g v Cy), (cyclic_at phi s' g v Cy). rewrite c_i3, c_i4, c_i5, c_v3, c_v4, c_v5.
    destruct Cy as [Cy Pr]. rewrite (Cy (corner s g v) (corner s g (v + 1)) (corner s g (v + 2))). rewrite (Pr (corner s g (v + 1)) (corner s g (v + 2)) (corner s g v) (corner s i (b + 1)) (corner s i b) (corner s g v)) by (reflexivity || assumption).
    rewrite (Cy (corner s g v) (cut_point s i b fr) (corner s g (v + 2))). rewrite (Pr (cut_point s i b fr) (corner s g (v + 2)) (corner s g v) (cut_point s i b fr) (corner s i b) (corner s g v)) by (reflexivity || assumption).
    rewrite <- (Cy (corner s i (b + 1)) (cut_point s i b fr) (corner s g v)). lra.
  - unfold zrange. apply FinFun.Injective_map_NoDup; [intros x y H; lia|apply seq_NoDup].
  - now apply zrange_in.
  - apply zrange_in, c_g0.
  - destruct c_g0. congruence.
  - intros x Hx N1 N2. apply zrange_in in Hx. now rewrite !c_rest0.
Qed.
Lemma vrefl a : a =v= a. Proof. reflexivity. Qed.
Definition additive (phi : coord -> coord -> coord -> R) : Prop := forall a b c t, (0 <= t <= 1)%Q -> let q := vadd a (vscale t (vsub b a)) in phi a b c = (phi a q c + phi q b c)%R.
Lemma cut_additive phi s s' n i b v g fr : cyclic phi -> additive phi -> (0 <= fr <= 1)%Q -> u_ids s = zrange n -> 0 <= i < Z.of_nat n -> cut s s' n i b v g fr -> total phi s' = total phi s.
Proof.
  intros Cy Ad Hf Ei Hi K. rewrite (cut_total phi s s' n i b v g fr Cy Ei Hi K). cbv zeta. rewrite (Ad (corner s i b) (corner s i (b + 1)) (corner s i (b + 2)) fr Hf). fold (cut_point s i b fr).
  rewrite (Ad (corner s i (b + 1)) (corner s i b) (corner s g v) (1 - fr)%Q) by lra. destruct Cy as [_ Pr].
  assert (E : vadd (corner s i (b + 1)) (vscale (1 - fr) (vsub (corner s i b) (corner s i (b + 1)))) =v= cut_point s i b fr) by (unfold cut_point, veq, vadd, vscale, vsub; cbn [cx cy cz]; repeat split; ring).
  rewrite (Pr _ _ _ _ _ _ (vrefl _) E (vrefl _)). rewrite (Pr _ _ _ _ _ _ E (vrefl _) (vrefl _)). lra.
Qed.
Lemma volume_cyclic o : cyclic (tet_volume o).
Proof.
  split; intros; unfold tet_volume; f_equal; apply Qeq_eqR.
  - unfold dot, cross, vsub. cbn [cx cy cz]. ring.
  - destruct H as (A1 & A2 & A3), H0 as (B1 & B2 & B3), H1 as (C1 & C2 & C3). unfold dot, cross, vsub. cbn [cx cy cz]. rewrite A1, A2, A3, B1, B2, B3, C1, C2, C3. reflexivity.
Qed.
Lemma volume_additive o : additive (tet_volume o).
Proof.
  intros a b c t Ht. cbv zeta. unfold tet_volume. rewrite <- Rdiv_plus_distr, <- Q2R_plus. f_equal. apply Qeq_eqR. unfold dot, cross, vsub, vadd, vscale. cbn [cx cy cz]. ring.
Qed.
Definition n2 (a b c : coord) : Q := norm2 (cross (vsub b a) (vsub c a)).
Lemma area_cyclic : cyclic tri_area.
Proof.
  split; intros; unfold tri_area; do 2 f_equal; apply Qeq_eqR.
  - unfold norm2, dot, cross, vsub. cbn [cx cy cz]. ring.
  - destruct H as (A1 & A2 & A3), H0 as (B1 & B2 & B3), H1 as (C1 & C2 & C3). unfold norm2, dot, cross, vsub. cbn [cx cy cz]. rewrite A1, A2, A3, B1, B2, B3, C1, C2, C3. reflexivity.
Qed.
Lemma Q2R_0 : Q2R 0 = 0%R. Proof. unfold Q2R. cbn. lra. Qed.
Lemma Q2R_1 : Q2R 1 = 1%R. Proof. unfold Q2R. cbn. lra. Qed.
Lemma Q2R_pos x : (0 <= x)%Q -> (0 <= Q2R x)%R.
Proof. intros H. apply Qle_Rle in H. now rewrite Q2R_0 in H. Qed.
Lemma sqrt_scaled t x y : (0 <= t)%Q -> (0 <= x)%Q -> (y == t * t * x)%Q -> sqrt (Q2R y) = (Q2R t * sqrt (Q2R x))%R.
Proof.
  intros Ht Hx E. rewrite (Qeq_eqR _ _ E), !Q2R_mult, sqrt_mult, sqrt_square; [reflexivity| |apply Rmult_le_pos|]; auto using Q2R_pos.
Qed.
Lemma area_first a b c t : (0 <= t)%Q -> tri_area a (vadd a (vscale t (vsub b a))) c = (Q2R t * tri_area a b c)%R.
Proof. intros Ht. unfold tri_area. rewrite (sqrt_scaled t (n2 a b c)); [unfold n2; lra|exact Ht|apply norm2_nonneg|]. unfold n2, norm2, dot, cross, vsub, vadd, vscale. cbn [cx cy cz]. ring. Qed.
Lemma area_second a b c t : (t <= 1)%Q -> tri_area (vadd a (vscale t (vsub b a))) b c = (Q2R (1 - t) * tri_area a b c)%R.
Proof. intros Ht. unfold tri_area. rewrite (sqrt_scaled (1 - t) (n2 a b c)); [unfold n2; lra|lra|apply norm2_nonneg|]. unfold n2, norm2, dot, cross, vsub, vadd, vscale. cbn [cx cy cz]. ring. Qed.
Lemma area_additive : additive tri_area.
Proof. intros a b c t Ht. cbv zeta. rewrite area_first, area_second by lra. rewrite Q2R_minus, Q2R_1. lra. Qed.
Lemma area_nonneg a b c : (0 <= tri_area a b c)%R.
Proof. unfold tri_area. assert (H := sqrt_pos (Q2R (norm2 (cross (vsub b a) (vsub c a))))). lra. Qed.

(** ** Parts of facets *)
Lemma within_veq a b c p q : p =v= q -> within a b c p -> within a b c q.
Proof. intros E (x & y & z & H & Hp). exists x, y, z. split; [exact H|]. now rewrite <- E. Qed.
Lemma within_between a b c p q t : (0 <= t <= 1)%Q -> within a b c p -> within a b c q -> within a b c (vadd p (vscale t (vsub q p))).
Proof.
  intros Ht (x & y & z & (X & Y & Z0 & E) & (P1 & P2 & P3)) (x' & y' & z' & (X' & Y' & Z' & E') & (P1' & P2' & P3')). exists (x + t * (x' - x))%Q, (y + t * (y' - y))%Q, (z + t * (z' - z))%Q. split.
  - split; [nra|]. split; [nra|]. split; [nra|]. setoid_replace (x + t * (x' - x) + (y + t * (y' - y)) + (z + t * (z' - z)))%Q with ((x + y + z) + t * ((x' + y' + z') - (x + y + z)))%Q by ring. rewrite E, E'. ring.
  - unfold veq, vadd, vscale, vsub in *. cbn [cx cy cz] in *. rewrite P1, P2, P3, P1', P2', P3'. repeat split; ring.
Qed.
Lemma refines_self s : refines s s.
Proof.
  intros id I. exists id. split; [exact I|]. intros k. assert (E : corner s id k = corner s id 0 \/ corner s id k = corner s id 1 \/ corner s id k = corner s id 2) by (destruct (tget_cases k) as [E|[E|E]]; [left|right; left|right; right]; apply corner_mod; lia).
  destruct E as [->|[->| ->]]; [exists 1%Q, 0%Q, 0%Q|exists 0%Q, 1%Q, 0%Q|exists 0%Q, 0%Q, 1%Q]; (split; [repeat split; (reflexivity || discriminate)|]); unfold veq, vadd, vscale; cbn [cx cy cz]; repeat split; ring.
Qed.
Lemma three s id (P : coord -> Prop) k : P (corner s id k) -> P (corner s id (k + 1)) -> P (corner s id (k + 2)) -> forall j, P (corner s id j).
Proof. intros A B C j. destruct (tget_cases (j - k)) as [E|[E|E]]; [rewrite (corner_mod s id j k)|rewrite (corner_mod s id j (k + 1))|rewrite (corner_mod s id j (k + 2))]; auto; lia. Qed.
Lemma cut_refines s0 s s' n i b v g fr : (0 <= fr <= 1)%Q -> u_ids s = zrange n -> 0 <= i < Z.of_nat n -> cut s s' n i b v g fr -> refines s0 s -> refines s0 s'.
Proof.
  intros Hf Ei Hi K Rf id I. destruct K. rewrite c_ids0, zrange_in in I.
  assert (Ri := Rf i ltac:(rewrite Ei, zrange_in; exact Hi)). assert (Rg := Rf g ltac:(rewrite Ei, zrange_in; apply c_g0)).
  destruct Ri as (i0 & Ii & Wi). destruct Rg as (g0 & Ig & Wg).
  assert (Qi : within (corner s0 i0 0) (corner s0 i0 1) (corner s0 i0 2) (cut_point s i b fr)) by (apply within_between; auto).
  assert (Qg : within (corner s0 g0 0) (corner s0 g0 1) (corner s0 g0 2) (cut_point s i b fr)).
  { apply (within_veq _ _ _ (vadd (corner s g (v + 2)) (vscale fr (vsub (corner s g (v + 1)) (corner s g (v + 2)))))); [|now apply within_between]. unfold cut_point. rewrite c_g3, c_g4. reflexivity. }
  destruct (Z.eq_dec id (Z.of_nat n)) as [->|N1]; [exists i0; split; [exact Ii|]; apply (three s' _ _ 0); cbn [Z.add]; rewrite ?c_n3, ?c_n4, ?c_n5; auto|].
  destruct (Z.eq_dec id (Z.of_nat n + 1)) as [->|N2]; [exists g0; split; [exact Ig|]; apply (three s' _ _ 0); cbn [Z.add]; rewrite ?c_m3, ?c_m4, ?c_m5; auto; apply (within_veq _ _ _ (corner s g (v + 1))); auto|].
  destruct (Z.eq_dec id i) as [->|N3]; [exists i0; split; [exact Ii|]; apply (three s' _ _ b); rewrite ?c_i3, ?c_i4, ?c_i5; auto|].
  destruct (Z.eq_dec id g) as [->|N4]; [exists g0; split; [exact Ig|]; apply (three s' _ _ v); rewrite ?c_v3, ?c_v4, ?c_v5; auto|].
  destruct (Rf id) as (id0 & I0 & W0); [rewrite Ei, zrange_in; lia|]. exists id0. split; [exact I0|]. intros k. rewrite c_rest0 by lia. apply W0.
Qed.

(** ** Quality and area *)
Lemma acos_arg x : (-1 <= Rmin (Rmax x (-1)) 1 <= 1)%R.
Proof. unfold Rmin, Rmax. destruct (Rle_dec x (-1)); destruct (Rle_dec _ 1); lra. Qed.
Lemma sin_angle_bounds u w : (0 <= sin (angle u w) <= 1)%R.
Proof.
  unfold angle. cbv zeta. match goal with |- context [Rmin (Rmax ?x (-1)) 1] => assert (H := acos_arg x); set (y := Rmin (Rmax x (-1)) 1) in * end. rewrite sin_acos by exact H. split; [apply sqrt_pos|]. apply Rle_trans with (sqrt 1); [apply sqrt_le_1_alt; unfold Rsqr; nra|rewrite sqrt_1; lra].
Qed.
Lemma sin_angle u w : (real_eps < norm2 u)%Q -> (real_eps < norm2 w)%Q -> (len u * len w * sin (angle u w))%R = sqrt (Q2R (norm2 (cross u w))).
Proof.
  intros Hu Hw. unfold angle. cbv zeta. rewrite (proj2 (Qlt_bool_iff _ _) Hu), (proj2 (Qlt_bool_iff _ _) Hw). cbn [andb]. set (A := Q2R (norm2 u)) in *. set (B := Q2R (norm2 w)). set (D := Q2R (dot u w)).
  assert (P : (0 < real_eps)%Q) by reflexivity. assert (HA : (0 < A)%R) by (unfold A; rewrite <- Q2R_0; apply Qlt_Rlt; lra). assert (HB : (0 < B)%R) by (unfold B; rewrite <- Q2R_0; apply Qlt_Rlt; lra).
  assert (Lg : Q2R (norm2 (cross u w)) = (A * B - D * D)%R). { unfold A, B, D. rewrite <- !Q2R_mult, <- Q2R_minus. apply Qeq_eqR. unfold norm2, dot, cross. cbn [cx cy cz]. ring. }
  assert (N0 : (0 <= A * B - D * D)%R) by (rewrite <- Lg; apply Q2R_pos, norm2_nonneg). assert (AB : (0 < A * B)%R) by now apply Rmult_lt_0_compat. assert (S0 := sqrt_lt_R0 _ AB). assert (S2 := sqrt_sqrt (A * B) (Rlt_le _ _ AB)).
  assert (X : (-1 <= D / sqrt (A * B) <= 1)%R). { split; [apply Rmult_le_reg_r with (sqrt (A * B)); [exact S0|]|apply Rmult_le_reg_r with (sqrt (A * B)); [exact S0|]]; unfold Rdiv; rewrite Rmult_assoc, Rinv_l by lra; nra. }
  assert (Y : Rmin (Rmax (D / sqrt (A * B)) (-1)) 1 = (D / sqrt (A * B))%R) by (rewrite Rmax_left by lra; apply Rmin_left; lra). rewrite Y, sin_acos by exact X. unfold len. fold A B. rewrite <- sqrt_mult by lra. rewrite <- sqrt_mult; [|lra|].
  - f_equal. rewrite Lg. unfold Rsqr. replace (D / sqrt (A * B) * (D / sqrt (A * B)))%R with (D * D / (sqrt (A * B) * sqrt (A * B)))%R by (field; lra). rewrite S2. field. lra.
  - unfold Rsqr. nra.
Qed.
Definition sine (f : sfacet) (k : Z) : R := sin (angle (side f k) (vopp (side f (k + 2)))).
Lemma quality_sines f : quality f = if Rlt_dec (Q2R real_eps) (sine f 0 + sine f 1 + sine f 2) then (4 * sine f 0 * sine f 1 * sine f 2 / (sine f 0 + sine f 1 + sine f 2))%R else 0%R.
Proof. reflexivity. Qed.
Lemma side_mod f k l : k mod 3 = l mod 3 -> side f k = side f l.
Proof. intros E. unfold side. now rewrite (tget_mod (sf_v f) k l E), (tget_mod (sf_v f) (k + 1) (l + 1)) by lia. Qed.
Lemma sine_mod f k l : k mod 3 = l mod 3 -> sine f k = sine f l.
Proof. intros E. unfold sine. now rewrite (side_mod f k l E), (side_mod f (k + 2) (l + 2)) by lia. Qed.
Lemma eps_R : (0 < Q2R real_eps)%R.
Proof. rewrite <- Q2R_0. apply Qlt_Rlt. reflexivity. Qed.
Lemma quality_le f k : (quality f <= 4 * sine f k)%R.
Proof.
  rewrite quality_sines. assert (B0 := sin_angle_bounds (side f 0) (vopp (side f (0 + 2)))). assert (B1 := sin_angle_bounds (side f 1) (vopp (side f (1 + 2)))). assert (B2 := sin_angle_bounds (side f 2) (vopp (side f (2 + 2)))). fold (sine f 0) in B0. fold (sine f 1) in B1. fold (sine f 2) in B2.
  assert (Bk : (0 <= sine f k)%R) by apply sin_angle_bounds. destruct (Rlt_dec (Q2R real_eps) (sine f 0 + sine f 1 + sine f 2)) as [D|D]; [|lra]. assert (E := eps_R). set (x := sine f 0) in *. set (y := sine f 1) in *. set (z := sine f 2) in *.
  apply Rmult_le_reg_r with (x + y + z)%R; [lra|]. unfold Rdiv. rewrite Rmult_assoc, Rinv_l by lra. rewrite Rmult_1_r.
  destruct (tget_cases k) as [Ek|[Ek|Ek]]; [rewrite (sine_mod f k 0) by lia; fold x|rewrite (sine_mod f k 1) by lia; fold y|rewrite (sine_mod f k 2) by lia; fold z].
  - assert (y * z <= x + y + z)%R by nra. assert (x * (y * z) <= x * (x + y + z))%R by (apply Rmult_le_compat_l; lra). lra.
  - assert (x * z <= x + y + z)%R by nra. assert (y * (x * z) <= y * (x + y + z))%R by (apply Rmult_le_compat_l; lra). lra.
  - assert (x * y <= x + y + z)%R by nra. assert (z * (x * y) <= z * (x + y + z))%R by (apply Rmult_le_compat_l; lra). lra.
Qed.
Definition three_area (f : sfacet) : R := tri_area (tget (sf_v f) 0) (tget (sf_v f) 1) (tget (sf_v f) 2).
Lemma sine_area f k : (real_eps < norm2 (side f k))%Q -> (real_eps < norm2 (side f (k + 2)))%Q -> (len (side f k) * len (side f (k + 2)) * sine f k)%R = (2 * three_area f)%R.
Proof.
  intros H1 H2. unfold sine. assert (E : norm2 (vopp (side f (k + 2))) == norm2 (side f (k + 2))) by (unfold norm2, dot, vopp; cbn [cx cy cz]; ring). assert (L : len (vopp (side f (k + 2))) = len (side f (k + 2))) by (unfold len; f_equal; now apply Qeq_eqR).
  rewrite <- L. rewrite sin_angle; [|exact H1|rewrite E; exact H2]. unfold three_area, tri_area. assert (Ar : forall a b c : coord, tri_area a b c = tri_area b c a) by apply area_cyclic. replace (2 * (sqrt (Q2R (norm2 (cross (vsub (tget (sf_v f) 1) (tget (sf_v f) 0)) (vsub (tget (sf_v f) 2) (tget (sf_v f) 0))))) / 2))%R with (sqrt (Q2R (norm2 (cross (vsub (tget (sf_v f) 1) (tget (sf_v f) 0)) (vsub (tget (sf_v f) 2) (tget (sf_v f) 0)))))) by lra.
  f_equal. apply Qeq_eqR. unfold side. set (t := sf_v f). destruct (tget_cases k) as [Ek|[Ek|Ek]]; [rewrite (tget_mod t (k + 1) 1), (tget_mod t k 0), (tget_mod t (k + 2 + 1) 0), (tget_mod t (k + 2) 2) by lia|rewrite (tget_mod t (k + 1) 2), (tget_mod t k 1), (tget_mod t (k + 2 + 1) 1), (tget_mod t (k + 2) 0) by lia|rewrite (tget_mod t (k + 1) 0), (tget_mod t k 2), (tget_mod t (k + 2 + 1) 2), (tget_mod t (k + 2) 1) by lia];
    unfold norm2, dot, cross, vopp, vsub; cbn [cx cy cz]; ring.
Qed.
Lemma big_edge_spec f : let '(b, d) := big_edge f in d = len (side f b) /\ forall k, (len (side f k) <= d)%R.
Proof.
  assert (A : forall d, (len (side f 0) <= d -> len (side f 1) <= d -> len (side f 2) <= d -> forall k, len (side f k) <= d)%R) by (intros d H0 H1 H2 k; destruct (tget_cases k) as [Ek|[Ek|Ek]]; [rewrite (side_mod f k 0)|rewrite (side_mod f k 1)|rewrite (side_mod f k 2)]; auto; lia).
  unfold big_edge. cbv zeta. destruct (Rlt_dec (len (side f 0)) (len (side f 1))); cbn [snd]; destruct (Rlt_dec _ (len (side f 2))); (split; [reflexivity|]); apply A; lra.
Qed.
Lemma choice_spec size fq f b fr : (0 < size)%R -> split_choice size fq f = Some (b, fr) -> ((1 # 3) <= fr <= (1 # 2))%Q /\ (fq <= quality f)%R /\ (size < len (side f b))%R /\ forall k, (len (side f k) <= len (side f b))%R.
Proof.
  intros Hs. unfold split_choice. assert (B := big_edge_spec f). destruct (big_edge f) as [b' d]. destruct B as [-> B]. destruct (Rle_dec fq (quality f)) as [Hq|]; [|discriminate]. destruct (Rlt_dec size (len (side f b'))) as [Hd|]; [|discriminate]. intros [= -> <-]. split; [|auto].
  set (ai := Int_part (len (side f b) / size)). destruct ((1 <? ai) && (ai <? 10) && Z.odd ai) eqn:E; [|split; discriminate]. apply andb_true_iff in E. destruct E as [E Eo]. apply andb_true_iff in E. destruct E as [E1 E2]. apply Z.ltb_lt in E1, E2.
  assert (H : ai = 3 \/ ai = 5 \/ ai = 7 \/ ai = 9). { assert (ai = 2 \/ ai = 3 \/ ai = 4 \/ ai = 5 \/ ai = 6 \/ ai = 7 \/ ai = 8 \/ ai = 9) by lia. destruct H as [H|[H|[H|[H|[H|[H|[H|H]]]]]]]; rewrite H in Eo; cbn in Eo; try discriminate; auto. }
  destruct H as [-> |[-> |[-> | ->]]]; split; discriminate.
Qed.
(** A facet that is split is not small. *)
Lemma split_area size fq f b fr : (0 < size)%R -> (Q2R real_eps < size * size / 4)%R -> (0 < fq)%R -> split_choice size fq f = Some (b, fr) -> (size * size * fq / 16 <= three_area f)%R.
Proof.
  intros Hs He Hf C. destruct (choice_spec size fq f b fr Hs C) as (_ & Hq & Hd & Hm).
  assert (Pos : forall v, (0 <= Q2R (norm2 v))%R) by (intros; apply Q2R_pos, norm2_nonneg). assert (Sq : forall v, (len v * len v)%R = Q2R (norm2 v)) by (intros v; apply sqrt_sqrt, Pos). assert (Lp : forall v, (0 <= len v)%R) by (intros; apply sqrt_pos).
  (* one of the other sides is at least half as long *)
  assert (Tri : exists k, (k mod 3 = b mod 3 \/ k mod 3 = (b + 1) mod 3) /\ (size < len (side f k))%R /\ (size / 2 < len (side f (k + 2)))%R \/ (k mod 3 = (b + 1) mod 3) /\ (size / 2 < len (side f k))%R /\ (size < len (side f (k + 2)))%R).
  { assert (Hn : (norm2 (side f b) <= 2 * (norm2 (side f (b + 1)) + norm2 (side f (b + 2))))%Q).
    { set (u := side f (b + 1)). set (w := side f (b + 2)). assert (E : side f b =v= vopp (vadd u w)). { unfold u, w, side. rewrite (tget_mod (sf_v f) (b + 2 + 1) b) by lia. replace (b + 1 + 1) with (b + 2) by lia. unfold veq, vopp, vadd, vsub. cbn [cx cy cz]. repeat split; ring. }
      rewrite E. assert (P := norm2_nonneg (vsub u w)). assert (I : (norm2 (vopp (vadd u w)) == 2 * (norm2 u + norm2 w) - norm2 (vsub u w))%Q) by (unfold norm2, dot, vopp, vadd, vsub; cbn [cx cy cz]; ring). lra. }
    apply Qle_Rle in Hn. rewrite Q2R_mult, Q2R_plus in Hn. rewrite <- !Sq in Hn. replace (Q2R 2) with 2%R in Hn by (unfold Q2R; cbn; lra).
    assert (Hs2 : forall v, (size * size / 4 < len v * len v)%R -> (size / 2 < len v)%R) by (intros v H; specialize (Lp v); nra).
    destruct (Rlt_dec (size * size / 4) (len (side f (b + 2)) * len (side f (b + 2)))) as [H|H].
    - exists b. left. split; [now left|]. split; [exact Hd|]. now apply Hs2.
    - exists (b + 1). right. split; [reflexivity|]. rewrite (side_mod f (b + 1 + 2) b) by lia. split; [|exact Hd]. apply Hs2. assert (L0 := Lp (side f b)). nra. }
  assert (Key : exists k, (size * size / 2 <= len (side f k) * len (side f (k + 2)))%R /\ (real_eps < norm2 (side f k))%Q /\ (real_eps < norm2 (side f (k + 2)))%Q).
  { assert (Eb : forall v, (size / 2 < len v)%R -> (real_eps < norm2 v)%Q). { intros v H. apply Rlt_Qlt. rewrite <- Sq. nra. }
    destruct Tri as [k [(_ & H1 & H2)|(_ & H1 & H2)]]; exists k; (split; [nra|split; apply Eb; lra]). }
  destruct Key as (k & K1 & K2 & K3). assert (A := sine_area f k K2 K3). assert (Q := quality_le f k). assert (Hk : (fq / 4 <= sine f k)%R) by lra. assert (size * size / 2 * (fq / 4) <= 2 * three_area f)%R; [|lra]. rewrite <- A. apply Rmult_le_compat; nra.
Qed.

(** ** The loop *)
Lemma area_facet s id k : facet_area s id = tri_area (corner s id k) (corner s id (k + 1)) (corner s id (k + 2)).
Proof. exact (cyclic_at tri_area s id k area_cyclic). Qed.
Lemma cut_point_back s i b fr : vadd (corner s i (b + 1)) (vscale (1 - fr) (vsub (corner s i b) (corner s i (b + 1)))) =v= cut_point s i b fr.
Proof. unfold cut_point, veq, vadd, vscale, vsub. cbn [cx cy cz]. repeat split; ring. Qed.
Lemma cut_area_i s s' n i b v g fr : (0 <= fr)%Q -> cut s s' n i b v g fr -> facet_area s' i = (Q2R fr * facet_area s i)%R.
Proof. intros Hf K. destruct K. rewrite (area_facet s' i b), (area_facet s i b), c_i3, c_i4, c_i5. now apply area_first. Qed.
Lemma cut_area_g s s' n i b v g fr : (0 <= fr)%Q -> cut s s' n i b v g fr -> facet_area s' g = (Q2R fr * facet_area s g)%R.
Proof.
  intros Hf K. destruct K. destruct area_cyclic as [Cy Pr]. rewrite (area_facet s' g v), (area_facet s g v), c_v3, c_v4, c_v5, (Cy (corner s g v)), (Cy (corner s g v)).
  rewrite (Pr (cut_point s i b fr) (corner s g (v + 2)) (corner s g v) (cut_point s i b fr) (corner s i b) (corner s g v)) by (reflexivity || assumption).
  rewrite (Pr (corner s g (v + 1)) (corner s g (v + 2)) (corner s g v) (corner s i (b + 1)) (corner s i b) (corner s g v)) by (reflexivity || assumption).
  rewrite (Pr _ _ _ _ _ _ (symmetry (cut_point_back s i b fr)) (vrefl _) (vrefl _)). rewrite area_second by lra. f_equal. apply Qeq_eqR. ring.
Qed.
(** Counts how often a facet can still be split. *)
Definition surplus (m : R) (a b c : coord) : R := Rmax 0 (3 * tri_area a b c / m - 1).
Lemma surplus_cyclic m : cyclic (surplus m).
Proof. destruct area_cyclic as [C P]. split; intros; unfold surplus; [now rewrite C|now rewrite (P a b c a' b' c')]. Qed.
Lemma surplus_nonneg m a b c : (0 <= surplus m a b c)%R.
Proof. apply Rmax_l. Qed.
Lemma surplus_split m a b c t : (0 < m)%R -> (0 <= t <= 1)%Q -> let q := vadd a (vscale t (vsub b a)) in (surplus m a q c + surplus m q b c <= surplus m a b c)%R.
Proof.
  intros Hm Ht q. assert (A := area_additive a b c t Ht). cbv zeta in A. fold q in A. assert (X := area_nonneg a q c). assert (Y := area_nonneg q b c). unfold surplus. rewrite A.
  assert (Di : forall x, (0 <= x -> 0 <= 3 * x / m)%R) by (intros x Hx; apply Rmult_le_pos; [lra|left; now apply Rinv_0_lt_compat]). assert (X' := Di _ X). assert (Y' := Di _ Y). replace (3 * (tri_area a q c + tri_area q b c) / m)%R with (3 * tri_area a q c / m + 3 * tri_area q b c / m)%R by (field; lra).
  unfold Rmax. repeat destruct Rle_dec; lra.
Qed.
Lemma surplus_spent m a b c t : (0 < m)%R -> (m <= tri_area a b c)%R -> ((1 # 3) <= t <= (1 # 2))%Q -> let q := vadd a (vscale t (vsub b a)) in (surplus m a q c + surplus m q b c <= surplus m a b c - 1)%R.
Proof.
  intros Hm Ha [T1 T2] q. assert (X : tri_area a q c = (Q2R t * tri_area a b c)%R) by (apply area_first; lra). assert (Y : tri_area q b c = (Q2R (1 - t) * tri_area a b c)%R) by (apply area_second; lra). rewrite Q2R_minus, Q2R_1 in Y.
  apply Qle_Rle in T1, T2. assert (E3 : Q2R (1 # 3) = (/ 3)%R) by (unfold Q2R; cbn; lra). assert (E2 : Q2R (1 # 2) = (/ 2)%R) by (unfold Q2R; cbn; lra). rewrite E3 in T1. rewrite E2 in T2. unfold surplus. rewrite X, Y. set (r := tri_area a b c) in *. set (x := Q2R t) in *.
  assert (R1 : (1 <= r / m)%R) by (apply Rmult_le_reg_r with m; [exact Hm|]; unfold Rdiv; rewrite Rmult_assoc, Rinv_l; lra).
  replace (3 * (x * r) / m)%R with (3 * x * (r / m))%R by (field; lra). replace (3 * ((1 - x) * r) / m)%R with (3 * (1 - x) * (r / m))%R by (field; lra). replace (3 * r / m)%R with (3 * (r / m))%R by (field; lra). set (z := (r / m)%R) in *.
  assert (1 <= 3 * x * z)%R by nra. assert (1 <= 3 * (1 - x) * z)%R by nra. rewrite !Rmax_right by nra. nra.
Qed.
Lemma cut_surplus m s s' n i b v g fr : (0 < m)%R -> (m <= facet_area s i)%R -> ((1 # 3) <= fr <= (1 # 2))%Q -> u_ids s = zrange n -> 0 <= i < Z.of_nat n -> cut s s' n i b v g fr ->
  (total (surplus m) s' <= total (surplus m) s - 1)%R.
Proof.
  intros Hm Ha Hf Ei Hi K. rewrite (cut_total (surplus m) s s' n i b v g fr (surplus_cyclic m) Ei Hi K). cbv zeta. rewrite (area_facet s i b) in Ha.
  assert (A := surplus_spent m _ _ _ fr Hm Ha Hf). cbv zeta in A. fold (cut_point s i b fr) in A.
  assert (B := surplus_split m (corner s i (b + 1)) (corner s i b) (corner s g v) (1 - fr) Hm ltac:(lra)). cbv zeta in B. destruct (surplus_cyclic m) as [_ Pr].
  rewrite (Pr _ _ _ _ _ _ (vrefl _) (cut_point_back s i b fr) (vrefl _)), (Pr _ _ _ _ _ _ (cut_point_back s i b fr) (vrefl _) (vrefl _)) in B. lra.
Qed.
Lemma choice_corners size fq s s' id : (forall k, corner s' id k = corner s id k) -> split_choice size fq (facet s' id) = split_choice size fq (facet s id).
Proof.
  intros H. assert (E : sf_v (facet s' id) = sf_v (facet s id)). { assert (A := H 0). assert (B := H 1). assert (C := H 2). unfold corner in A, B, C. destruct (sf_v (facet s' id)) as [[x y] z], (sf_v (facet s id)) as [[x' y'] z']. cbn in A, B, C. now subst. }
  destruct (facet s' id) as [t1 a1 b1], (facet s id) as [t2 a2 b2]. cbn in E. subst. reflexivity.
Qed.
Definition untouched (s0 s : surf) (id : Z) : Prop := (forall k, corner s id k = corner s0 id k) /\ (forall k, across s id k = -1 <-> across s0 id k = -1).
Record kept (size fq : R) (s0 : surf) (n0 : nat) (s : surf) (n : nat) (i : Z) : Prop := {
  k_glued : glued s;
  k_ids : u_ids s = zrange n;
  k_more : (n0 <= n)%nat;
  k_rim : forall x y, rim s0 x y <-> rim s x y;
  k_volume : forall o, total (tet_volume o) s = total (tet_volume o) s0;
  k_area : total tri_area s = total tri_area s0;
  k_parts : refines s0 s;
  k_either : forall id, 0 <= id < Z.of_nat n0 -> untouched s0 s id \/ (facet_area s id <= 2 / 3 * facet_area s0 id)%R;
  k_done : forall id b fr, 0 <= id < Z.of_nat n0 -> id < i -> split_choice size fq (facet s0 id) = Some (b, fr) -> across s0 id b <> -1 -> (facet_area s id <= 2 / 3 * facet_area s0 id)%R }.
Lemma kept_start size fq s n : glued s -> u_ids s = zrange n -> kept size fq s n s n 0.
Proof.
  intros G E. constructor; auto; try reflexivity; try apply refines_self; intros; try lia. left. split; reflexivity.
Qed.
Lemma less_area x y : (x <= 2 / 3 * y -> 0 <= x -> x <= y)%R.
Proof. lra. Qed.
Lemma facet_area_nonneg s id : (0 <= facet_area s id)%R. Proof. exact (area_nonneg (corner s id 0) (corner s id 1) (corner s id 2)). Qed.
Lemma untouched_area s0 s id : untouched s0 s id -> facet_area s id = facet_area s0 id.
Proof. intros [H _]. unfold facet_area. now rewrite !H. Qed.
Lemma kept_step size fq s0 n0 s n i : (0 < size)%R -> (Q2R real_eps < size * size / 4)%R -> (0 < fq)%R -> kept size fq s0 n0 s n i -> 0 <= i < Z.of_nat n ->
  exists s' n', split_at (split_choice size fq) s i = Ok s' /\ kept size fq s0 n0 s' n' (i + 1) /\
    (s' = s /\ n' = n \/ n' = (n + 2)%nat /\ (total (surplus (size * size * fq / 16)) s' <= total (surplus (size * size * fq / 16)) s - 1)%R).
Proof.
  intros Hs He Hf K Hi. destruct K as [G Ei Mo Ri Vo Ar Pa Ei2 Do]. destruct (split_cut s n i (split_choice size fq) G Ei Hi) as [(b & fr & C & s' & R0 & Nb & K)|[R0 Nx]].
  - exists s', (n + 2)%nat. split; [exact R0|]. destruct (choice_spec size fq _ b fr Hs C) as (Fr & _). assert (F01 : (0 <= fr <= 1)%Q) by lra. assert (F0 : (0 <= fr)%Q) by lra.
    assert (Am := split_area size fq _ b fr Hs He Hf C). change (three_area (facet s i)) with (facet_area s i) in Am. assert (Mp : (0 < size * size * fq / 16)%R) by (assert (0 < size * size * fq)%R by (apply Rmult_lt_0_compat; nra); lra).
    assert (Ai := cut_area_i _ _ _ _ _ _ _ _ F0 K). assert (Ag := cut_area_g _ _ _ _ _ _ _ _ F0 K).
    assert (F2 : (Q2R fr <= 2 / 3)%R) by (destruct Fr as [_ Fr]; apply Qle_Rle in Fr; assert (E2 : Q2R (1 # 2) = (/ 2)%R) by (unfold Q2R; cbn; lra); lra).
    assert (Ol : forall id, 0 <= id < Z.of_nat n0 -> (facet_area s id <= facet_area s0 id)%R). { intros id H. destruct (Ei2 id H) as [U|U]; [rewrite (untouched_area _ _ _ U); lra|]. apply less_area; [exact U|apply facet_area_nonneg]. }
    assert (Sm : forall x y, (0 <= x -> x <= y -> Q2R fr * x <= 2 / 3 * y)%R) by (intros x y X Y; assert (0 <= Q2R fr)%R by (now apply Q2R_pos); apply Rmult_le_compat; lra).
    assert (Ca := K). destruct Ca. set (g := across s i b) in *. split; [|right; split; [reflexivity|now apply (cut_surplus _ s s' n i b (apart s i b) g fr)]].
    constructor; auto; try lia.
    + intros x y. rewrite Ri. apply c_rim0.
    + intros o. rewrite <- Vo. exact (cut_additive _ s s' n i b (apart s i b) g fr (volume_cyclic o) (volume_additive o) F01 Ei Hi K).
    + rewrite <- Ar. exact (cut_additive _ s s' n i b (apart s i b) g fr area_cyclic area_additive F01 Ei Hi K).
    + apply (cut_refines s0 s s' n i b (apart s i b) g fr); auto.
    + intros id H. destruct (Z.eq_dec id i) as [->|N1]; [right; rewrite Ai; apply Sm; [apply facet_area_nonneg|now apply Ol]|]. destruct (Z.eq_dec id g) as [->|N2]; [right; rewrite Ag; apply Sm; [apply facet_area_nonneg|now apply Ol]|].
      destruct (Ei2 id H) as [[U1 U2]|U].
      * left. split; intros k; [rewrite c_rest0 by lia; apply U1|rewrite c_links0 by lia; apply U2].
      * right. unfold facet_area at 1. rewrite !c_rest0 by lia. exact U.
    + intros id b' fr' H Hlt Ch Nb'. destruct (Z.eq_dec id i) as [->|N1]; [rewrite Ai; apply Sm; [apply facet_area_nonneg|now apply Ol]|]. destruct (Z.eq_dec id g) as [->|N2]; [rewrite Ag; apply Sm; [apply facet_area_nonneg|now apply Ol]|].
      unfold facet_area at 1. rewrite !c_rest0 by lia. apply (Do id b' fr'); auto; lia.
  - exists s, n. split; [exact R0|]. split; [|left; auto]. constructor; auto. intros id b fr H Hlt C Nb. destruct (Z.eq_dec id i) as [->|N1]; [|apply (Do id b fr); auto; lia].
    destruct (Ei2 i H) as [[U1 U2]|U]; [|exact U]. exfalso. apply Nb. apply U2. apply (Nx b fr). rewrite <- C. now apply choice_corners.
Qed.
Lemma loop_ends size fq s0 n0 : (0 < size)%R -> (Q2R real_eps < size * size / 4)%R -> (0 < fq)%R -> forall turns s n i, kept size fq s0 n0 s n i -> 0 <= i <= Z.of_nat n ->
  (IZR (Z.of_nat n - i) + 2 * total (surplus (size * size * fq / 16)) s < INR turns)%R -> exists s' n' i', split_loop turns (split_choice size fq) s i = Ok (Some s') /\ kept size fq s0 n0 s' n' i' /\ Z.of_nat n' <= i'.
Proof.
  intros Hs He Hf. assert (Pp : forall s, (0 <= total (surplus (size * size * fq / 16)) s)%R) by (intros s; rewrite total_rsum; apply rsum_nonneg; intros; apply surplus_nonneg).
  induction turns as [|t IH]; intros s n i K Hi Hm; [assert (P := Pp s); assert (0 <= IZR (Z.of_nat n - i))%R by (apply IZR_le; lia); cbn in Hm; lra|].
  cbn [split_loop]. assert (E : u_size s = Z.of_nat n) by (unfold u_size, zlen; rewrite (k_ids _ _ _ _ _ _ _ K), zrange_len; reflexivity). rewrite E. destruct (Z.ltb_spec i (Z.of_nat n)) as [L|L].
  - destruct (kept_step size fq s0 n0 s n i Hs He Hf K ltac:(lia)) as (s' & n' & R0 & K' & D). rewrite R0. cbn [bind]. apply (IH s' n'); [exact K'|destruct D as [[_ ->]|[-> _]]; lia|]. rewrite S_INR in Hm. destruct D as [[-> ->]|[-> D]].
    + rewrite !minus_IZR in *. rewrite plus_IZR. lra.
    + rewrite !minus_IZR in *. replace (Z.of_nat (n + 2)) with (Z.of_nat n + 2) by lia. rewrite !plus_IZR. lra.
  - exists s, n, i. auto.
Qed.
Lemma loop_more choice : forall turns s i s' more, split_loop turns choice s i = Ok (Some s') -> split_loop (turns + more) choice s i = Ok (Some s').
Proof.
  induction turns as [|t IH]; intros s i s' more H; [discriminate|]. cbn [Nat.add split_loop] in *. destruct (i <? u_size s); [|exact H]. destruct (split_at choice s i) as [x| |]; cbn [bind] in *; try discriminate. now apply IH.
Qed.

(** ** C91 *)
Theorem C91_split : forall s n size fq, glued s -> u_ids s = zrange n -> (0 < size)%R -> (Q2R real_eps < size * size / 4)%R -> (0 < fq)%R ->
  exists turns s', (forall more, split_facets (turns + more) size fq s = Ok (Some s')) /\
    glued s' /\ (exists n', u_ids s' = zrange n' /\ (n <= n')%nat) /\
    (forall x y, rim s' x y <-> rim s x y) /\
    (forall o, total (tet_volume o) s' = total (tet_volume o) s) /\
    total tri_area s' = total tri_area s /\
    refines s s' /\
    (forall id k, In id (u_ids s) -> (size < distance (corner s id k) (corner s id (k + 1)))%R -> (fq <= quality (facet s id))%R -> (forall k, ~ free s id k) ->
       (facet_area s' id <= 2 / 3 * facet_area s id)%R).
Proof.
  intros s n size fq G Ei Hs He Hf. set (mu := (IZR (Z.of_nat n - 0) + 2 * total (surplus (size * size * fq / 16)) s)%R). assert (Ub : exists turns, (mu < INR turns)%R) by (exists (Z.to_nat (up mu)); rewrite INR_IZR_INZ; destruct (archimed mu) as [Au _]; apply Rlt_le_trans with (IZR (up mu)); [lra|apply IZR_le; lia]). destruct Ub as [turns Ht].
  destruct (loop_ends size fq s n Hs He Hf turns s n 0 (kept_start size fq s n G Ei) ltac:(lia) Ht) as (s' & n' & i' & R0 & K & Hi). exists turns, s'. destruct K as [G' Ei' Mo Ri Vo Ar Pa Ei2 Do].
  split; [intros more; now apply loop_more|]. split; [exact G'|]. split; [now exists n'|]. split; [intros; symmetry; apply Ri|]. split; [exact Vo|]. split; [exact Ar|]. split; [exact Pa|].
  intros id k I Hd Hq Nf. assert (I' := I). rewrite Ei, zrange_in in I. assert (B := big_edge_spec (facet s id)). destruct (big_edge (facet s id)) as [b d] eqn:Eb. destruct B as [Hb Hb'].
  assert (Hd2 : (size < d)%R) by (eapply Rlt_le_trans; [exact Hd|exact (Hb' k)]).
  assert (Ch : exists fr, split_choice size fq (facet s id) = Some (b, fr)). { unfold split_choice. rewrite Eb. destruct (Rle_dec fq (quality (facet s id))) as [|C]; [|now exfalso; apply C]. destruct (Rlt_dec size d) as [|C]; [|now exfalso; apply C]. eexists. reflexivity. }
  destruct Ch as [fr Ch]. apply (Do id b fr); auto; [lia|]. intros Ea. destruct (proj2 G id b I') as [F|(nb & l & L & _)]; [exact (Nf b F)|]. destruct L as (L1 & _ & L2 & _). rewrite L2 in Ea. assert (P := proj2 (proj2 (proj2 (proj1 G))) nb L1). lia.
Qed.
Print Assumptions C91_split.

(** The quality is twice the ratio of the radii of the inscribed and the circumscribed circle: with r = 2 A / (l0 + l1 + l2) and R = l0 l1 l2 / (4 A), 2 r / R = 16 A^2 / (l0 l1 l2 (l0 + l1 + l2)). *)
Definition edge (f : sfacet) (k : Z) : R := distance (tget (sf_v f) k) (tget (sf_v f) (k + 1)).
Theorem C91_quality : forall f, let A := tri_area (tget (sf_v f) 0) (tget (sf_v f) 1) (tget (sf_v f) 2) in
  (forall k, (Q2R real_eps < edge f k * edge f k)%R) -> (Q2R real_eps * (edge f 0 * edge f 1 * edge f 2) < 2 * A * (edge f 0 + edge f 1 + edge f 2))%R ->
  (quality f * (edge f 0 * edge f 1 * edge f 2 * (edge f 0 + edge f 1 + edge f 2)) = 16 * (A * A))%R.
Proof.
  intros f A Hl Hd. assert (Sq : forall v, (len v * len v)%R = Q2R (norm2 v)) by (intros v; apply sqrt_sqrt, Q2R_pos, norm2_nonneg). assert (L : forall k, edge f k = len (side f k)) by reflexivity.
  assert (He : forall k, (real_eps < norm2 (side f k))%Q) by (intros k; apply Rlt_Qlt; rewrite <- Sq, <- L; apply Hl). assert (E := eps_R).
  assert (Lp : forall k, (0 < edge f k)%R). { intros k. assert (0 <= edge f k)%R by apply sqrt_pos. specialize (Hl k). nra. }
  assert (S0 : (edge f 0 * edge f 2 * sine f 0)%R = (2 * A)%R) by (rewrite !L; exact (sine_area f 0 (He 0) (He 2))).
  assert (S1 : (edge f 1 * edge f 0 * sine f 1)%R = (2 * A)%R) by (rewrite !L; exact (sine_area f 1 (He 1) (He 3))).
  assert (S2 : (edge f 2 * edge f 1 * sine f 2)%R = (2 * A)%R) by (rewrite !L; exact (sine_area f 2 (He 2) (He 4))).
  assert (P0 := Lp 0). assert (P1 := Lp 1). assert (P2 := Lp 2). set (x := edge f 0) in *. set (y := edge f 1) in *. set (z := edge f 2) in *. rewrite quality_sines. set (a := sine f 0) in *. set (b := sine f 1) in *. set (c := sine f 2) in *.
  assert (Ea : a = (2 * A / (x * z))%R) by (rewrite <- S0; field; split; lra). assert (Eb : b = (2 * A / (y * x))%R) by (rewrite <- S1; field; split; lra). assert (Ec : c = (2 * A / (z * y))%R) by (rewrite <- S2; field; split; lra).
  assert (Es : (a + b + c)%R = (2 * A * (x + y + z) / (x * y * z))%R) by (rewrite Ea, Eb, Ec; field; repeat split; lra).
  assert (P : (0 < x * y * z)%R) by (apply Rmult_lt_0_compat; [now apply Rmult_lt_0_compat|exact P2]).
  assert (G : (Q2R real_eps < a + b + c)%R). { rewrite Es. apply Rmult_lt_reg_r with (x * y * z)%R; [exact P|]. unfold Rdiv. rewrite (Rmult_assoc (2 * A * (x + y + z))), Rinv_l by lra. lra. }
  destruct (Rlt_dec (Q2R real_eps) (a + b + c)) as [_|C]; [|contradiction]. assert (An : A <> 0%R) by (intros E0; rewrite E0 in Hd; nra). rewrite Es, Ea, Eb, Ec. field. repeat split; lra.
Qed.
Print Assumptions C91_quality.

(** ** Computing runs for rational sizes at most once the longest edge, at least half of it. *)
Definition qbig (f : sfacet) : Z :=
  let d0 := norm2 (side f 0) in let d1 := norm2 (side f 1) in let d2 := norm2 (side f 2) in
  if Qlt_bool d0 d1 then (if Qlt_bool d1 d2 then 2 else 1) else (if Qlt_bool d0 d2 then 2 else 0).
Definition qchoice (sz : Q) (f : sfacet) : option (Z * Q) := if Qlt_bool (sz * sz) (norm2 (side f (qbig f))) then Some (qbig f, 1 # 2) else None.
(** Every sine is at least [m]. *)
Definition qfine (m : Q) (f : sfacet) : bool :=
  forallb (fun k => Qlt_bool real_eps (norm2 (side f k)) && Qle_bool (m * m * (norm2 (side f k) * norm2 (side f (k + 2)))) (norm2 (cross (side f k) (side f (k + 2))))) [0; 1; 2].
Definition qsure (sz m : Q) (f : sfacet) : bool := Qle_bool (norm2 (side f (qbig f))) (sz * sz) || (Qlt_bool (norm2 (side f (qbig f))) (4 * (sz * sz)) && qfine m f).
Lemma len_lt u w : (len u < len w)%R <-> (norm2 u < norm2 w)%Q.
Proof.
  unfold len. split; intros H.
  - apply Rlt_Qlt. apply Rnot_le_lt. intros C. apply (Rlt_irrefl (sqrt (Q2R (norm2 u)))). eapply Rlt_le_trans; [exact H|]. now apply sqrt_le_1_alt.
  - apply sqrt_lt_1_alt. split; [apply Q2R_pos, norm2_nonneg|now apply Qlt_Rlt].
Qed.
Lemma qlt_dec_len u w : (if Rlt_dec (len u) (len w) then true else false) = Qlt_bool (norm2 u) (norm2 w).
Proof. destruct (Rlt_dec (len u) (len w)) as [H|H]; symmetry; [now apply Qlt_bool_iff, len_lt|]. apply Bool.not_true_is_false. intros C. apply H, len_lt, Qlt_bool_iff, C. Qed.
Lemma qbig_spec f : big_edge f = (qbig f, len (side f (qbig f))).
Proof.
  unfold big_edge, qbig. cbv zeta. rewrite <- !qlt_dec_len. destruct (Rlt_dec (len (side f 0)) (len (side f 1))); cbn [snd]; destruct (Rlt_dec _ (len (side f 2))); reflexivity.
Qed.
Lemma len_sq v : (len v * len v)%R = Q2R (norm2 v).
Proof. apply sqrt_sqrt, Q2R_pos, norm2_nonneg. Qed.
Lemma len_pos v : (0 <= len v)%R.
Proof. apply sqrt_pos. Qed.
Lemma qfine_quality m f : (0 < m)%Q -> (real_eps < 3 * m)%Q -> qfine m f = true -> (4 * (Q2R m * Q2R m * Q2R m) / 3 <= quality f)%R.
Proof.
  intros Hm He H. unfold qfine in H. rewrite forallb_forall in H.
  assert (S0 : forall k, In k [0; 1; 2] -> (Q2R m <= sine f k)%R).
  { intros k Ik. assert (Hk := H k Ik). assert (Ik2 : In ((k + 2) mod 3) [0; 1; 2]) by (cbn in Ik |- *; destruct Ik as [<-|[<-|[<-|[]]]]; cbn; auto). assert (Hk2 := H _ Ik2). apply andb_true_iff in Hk, Hk2. destruct Hk as [H1 H2], Hk2 as [H3 _]. apply Qlt_bool_iff in H1, H3. apply Qle_bool_iff in H2. rewrite (side_mod f ((k + 2) mod 3) (k + 2)) in H3 by lia.
    unfold sine. set (u := side f k) in *. set (w := side f (k + 2)) in *. assert (Ew : norm2 (vopp w) == norm2 w) by (unfold norm2, dot, vopp; cbn [cx cy cz]; ring). assert (Ec : norm2 (cross u (vopp w)) == norm2 (cross u w)) by (unfold norm2, dot, vopp, cross; cbn [cx cy cz]; ring).
    assert (Sa := sin_angle u (vopp w) H1 ltac:(rewrite Ew; exact H3)). rewrite (Qeq_eqR _ _ Ec) in Sa. assert (B := sin_angle_bounds u (vopp w)). set (z := sin (angle u (vopp w))) in *.
    assert (Lu : (0 < len u)%R) by (apply sqrt_lt_R0; rewrite <- Q2R_0; apply Qlt_Rlt; assert (0 < real_eps)%Q by reflexivity; lra). assert (Lw : (0 < len (vopp w))%R) by (apply sqrt_lt_R0; rewrite <- Q2R_0; apply Qlt_Rlt; assert (0 < real_eps)%Q by reflexivity; lra).
    apply Qle_Rle in H2. rewrite !Q2R_mult in H2. rewrite <- (Qeq_eqR _ _ Ew) in H2. rewrite <- !len_sq in H2. assert (Mp : (0 < Q2R m)%R) by (rewrite <- Q2R_0; now apply Qlt_Rlt).
    apply Rmult_le_reg_l with (len u * len (vopp w))%R; [now apply Rmult_lt_0_compat|]. rewrite Sa. change (len u * len (vopp w) * Q2R m <= len (cross u w))%R. assert (Cp := len_pos (cross u w)). assert (P : (0 <= len u * len (vopp w) * Q2R m)%R) by (apply Rmult_le_pos; [apply Rmult_le_pos; lra|lra]). apply Rsqr_incr_0; [unfold Rsqr|exact P|exact Cp]. lra. }
  assert (A := S0 0 ltac:(cbn; auto)). assert (B := S0 1 ltac:(cbn; auto)). assert (C := S0 2 ltac:(cbn; auto)). rewrite quality_sines. apply Qlt_Rlt in He. rewrite Q2R_mult in He. replace (Q2R 3) with 3%R in He by (unfold Q2R; cbn; lra). destruct (Rlt_dec (Q2R real_eps) (sine f 0 + sine f 1 + sine f 2)) as [D|D]; [|exfalso; lra].
  assert (Mp : (0 < Q2R m)%R) by (rewrite <- Q2R_0; now apply Qlt_Rlt).
  assert (Ub : forall k, (sine f k <= 1)%R) by (intros; apply sin_angle_bounds). assert (U0 := Ub 0). assert (U1 := Ub 1). assert (U2 := Ub 2). set (x := sine f 0) in *. set (y := sine f 1) in *. set (z := sine f 2) in *. set (r := Q2R m) in *.
  apply Rmult_le_reg_r with (x + y + z)%R; [lra|]. replace (4 * x * y * z / (x + y + z) * (x + y + z))%R with (4 * (x * y * z))%R by (field; lra). assert (r * r <= x * y)%R by nra. assert (r * r * r <= x * y * z)%R by (apply Rmult_le_compat; nra). assert (0 <= r * r * r)%R by nra.
  apply Rle_trans with (4 * (r * r * r) / 3 * 3)%R; [apply Rmult_le_compat_l; lra|lra].
Qed.
Lemma int_one x y : (0 < y)%R -> (y < x)%R -> (x < 2 * y)%R -> Int_part (x / y) = 1.
Proof.
  intros Hy H1 H2. assert (X : (x / y * y = x)%R) by (field; lra). set (z := (x / y)%R) in *. clearbody z. unfold Int_part. rewrite <- (tech_up z 2); [reflexivity|nra|nra].
Qed.
Definition place (ai : Z) : Q := if (1 <? ai) && (ai <? 10) && Z.odd ai then (1 # 2) - (1 # 2) / inject_Z ai else 1 # 2.
Lemma choice_case size fq f b d : big_edge f = (b, d) -> split_choice size fq f = if Rle_dec fq (quality f) then (if Rlt_dec size d then Some (b, place (Int_part (d / size))) else None) else None.
Proof. intros E. unfold split_choice. rewrite E. reflexivity. Qed.
Lemma lt_len sz v : (0 < sz)%Q -> (sz * sz < norm2 v)%Q <-> (Q2R sz < len v)%R.
Proof.
  intros Hs. assert (Sp : (0 < Q2R sz)%R) by (rewrite <- Q2R_0; now apply Qlt_Rlt). assert (Lp := len_pos v). assert (Ls := len_sq v). split; intros H.
  - apply Qlt_Rlt in H. rewrite Q2R_mult in H. nra.
  - apply Rlt_Qlt. rewrite Q2R_mult. nra.
Qed.
Lemma len_le sz v : (0 < sz)%Q -> (norm2 v < 4 * (sz * sz))%Q -> (len v < 2 * Q2R sz)%R.
Proof.
  intros Hs H. assert (Sp : (0 < Q2R sz)%R) by (rewrite <- Q2R_0; now apply Qlt_Rlt). assert (Lp := len_pos v). assert (Ls := len_sq v). apply Qlt_Rlt in H. rewrite !Q2R_mult in H. assert (E : Q2R 4 = 4%R) by (unfold Q2R; cbn; lra). rewrite E in H. nra.
Qed.
Lemma small_choice sz fq f b : (0 < sz)%Q -> (norm2 (side f b) <= sz * sz)%Q -> (if Rle_dec fq (quality f) then (if Rlt_dec (Q2R sz) (len (side f b)) then Some (b, place (Int_part (len (side f b) / Q2R sz))) else None) else None) = None.
Proof.
  intros Hs H. destruct (Rle_dec fq (quality f)); [|reflexivity]. destruct (Rlt_dec (Q2R sz) (len (side f b))) as [C|]; [|reflexivity]. exfalso. apply lt_len in C; [|exact Hs]. exact (Qlt_not_le _ _ C H).
Qed.
Lemma large_choice sz fq f b : (0 < sz)%Q -> (fq <= quality f)%R -> (sz * sz < norm2 (side f b))%Q -> (norm2 (side f b) < 4 * (sz * sz))%Q -> (if Rle_dec fq (quality f) then (if Rlt_dec (Q2R sz) (len (side f b)) then Some (b, place (Int_part (len (side f b) / Q2R sz))) else None) else None) = Some (b, 1 # 2).
Proof.
  intros Hs Hq H1 H2. destruct (Rle_dec fq (quality f)) as [_|C]; [|contradiction]. apply lt_len in H1; [|exact Hs]. destruct (Rlt_dec (Q2R sz) (len (side f b))) as [_|C]; [|contradiction]. rewrite int_one; [reflexivity| |exact H1|now apply len_le]. rewrite <- Q2R_0. now apply Qlt_Rlt.
Qed.
Lemma qchoice_some sz f : (sz * sz < norm2 (side f (qbig f)))%Q -> qchoice sz f = Some (qbig f, 1 # 2).
Proof. intros H. apply Qlt_bool_iff in H. unfold qchoice. now rewrite H. Qed.
Lemma qchoice_none sz f : ~ (sz * sz < norm2 (side f (qbig f)))%Q -> qchoice sz f = None.
Proof. intros H. unfold qchoice. destruct (Qlt_bool _ _) eqn:E; [|reflexivity]. apply Qlt_bool_iff in E. contradiction. Qed.
Lemma qsure_cases sz m f : qsure sz m f = true -> (norm2 (side f (qbig f)) <= sz * sz)%Q \/ ((norm2 (side f (qbig f)) < 4 * (sz * sz))%Q /\ qfine m f = true).
Proof. unfold qsure. rewrite orb_true_iff, andb_true_iff, Qle_bool_iff, Qlt_bool_iff. auto. Qed.
Lemma qsure_spec sz m f fq : (0 < sz)%Q -> (0 < m)%Q -> (real_eps < 3 * m)%Q -> (fq <= 4 * (Q2R m * Q2R m * Q2R m) / 3)%R -> qsure sz m f = true -> split_choice (Q2R sz) fq f = qchoice sz f.
Proof.
  intros Hs Hm He Hf H. apply qsure_cases in H. refine (eq_trans (choice_case _ _ _ _ _ (qbig_spec f)) _). destruct (Qlt_le_dec (sz * sz) (norm2 (side f (qbig f)))) as [E|E].
  - rewrite (qchoice_some _ _ E). destruct H as [H|[H F]]; [exfalso; exact (Qlt_not_le _ _ E H)|]. apply large_choice; auto. eapply Rle_trans; [exact Hf|]. exact (qfine_quality m f Hm He F).
  - rewrite (qchoice_none _ _ (Qle_not_lt _ _ E)). now apply small_choice.
Qed.
Fixpoint sim (turns : nat) (sz m : Q) (s : surf) (i : Z) : option surf :=
  match turns with
  | O => None
  | Datatypes.S t => if i <? u_size s then match u_id s i with Ok id => match u_get s id with Ok f => if qsure sz m f then match split_at (qchoice sz) s i with Ok s' => sim t sz m s' (i + 1) | _ => None end else None | _ => None end | _ => None end else Some s
  end.
Lemma sim_spec sz m fq : (0 < sz)%Q -> (0 < m)%Q -> (real_eps < 3 * m)%Q -> (fq <= 4 * (Q2R m * Q2R m * Q2R m) / 3)%R -> forall turns s i s', sim turns sz m s i = Some s' -> split_loop turns (split_choice (Q2R sz) fq) s i = Ok (Some s').
Proof.
  intros Hs Hm He Hf. induction turns as [|t IH]; intros s i s' H; [discriminate|]. cbn [sim split_loop] in *. destruct (i <? u_size s); [|congruence].
  assert (X : forall id f, u_id s i = Ok id -> u_get s id = Ok f -> qsure sz m f = true -> split_at (split_choice (Q2R sz) fq) s i = split_at (qchoice sz) s i) by (intros id f E1 E2 E3; unfold split_at; rewrite E1; cbn [bind]; rewrite E2; cbn [bind]; now rewrite (qsure_spec sz m f fq)).
  destruct (u_id s i) as [id| |]; try discriminate. destruct (u_get s id) as [f| |] eqn:E2; try discriminate. destruct (qsure sz m f) eqn:E3; try discriminate. rewrite (X id f eq_refl E2 E3). destruct (split_at (qchoice sz) s i) as [s1| |]; try discriminate. cbn [bind]. now apply IH.
Qed.
Lemma loop_unique choice t1 t2 s i s1 s2 : split_loop t1 choice s i = Ok (Some s1) -> split_loop t2 choice s i = Ok (Some s2) -> s1 = s2.
Proof. intros A B. apply (loop_more choice t1 s i s1 t2) in A. apply (loop_more choice t2 s i s2 t1) in B. rewrite Nat.add_comm in B. congruence. Qed.

(** ** Concrete runs *)
Definition vec (x y z : Z) : coord := Coord (inject_Z x) (inject_Z y) (inject_Z z).
(** One edge of this tetrahedron is longer than 7/2. *)
Definition tet_a (o : Z) : surf := tetra o (vec 0 0 0) (vec 4 0 0) (vec 2 2 0) (vec 2 1 2).
(** Two edges of this one are longer than 5. *)
Definition tet_b : surf := tetra 0 (vec 5 6 2) (vec 4 1 3) (vec 3 3 6) (vec 6 6 6).
Lemma tet_a_glued o : 0 <= o -> o = 0 \/ o = 5 -> glued (tet_a o).
Proof. intros H E. apply gluedb_spec; [now apply tetra_well|]. destruct E as [-> | ->]; vm_compute; reflexivity. Qed.
Lemma tet_b_glued : glued tet_b.
Proof. apply gluedb_spec; [apply tetra_well; lia|vm_compute; reflexivity]. Qed.
Definition after (turns : nat) (sz m : Q) (s : surf) : surf := match sim turns sz m s 0 with Some s' => s' | None => u_empty end.
Lemma after_spec turns sz m fq s : sim turns sz m s 0 <> None -> (0 < sz)%Q -> (0 < m)%Q -> (real_eps < 3 * m)%Q -> (fq <= 4 * (Q2R m * Q2R m * Q2R m) / 3)%R -> forall t s', split_facets t (Q2R sz) fq s = Ok (Some s') -> s' = after turns sz m s.
Proof.
  intros H Hs Hm He Hf t s' E. unfold after. destruct (sim turns sz m s 0) as [s1|] eqn:Es; [|contradiction]. assert (X := sim_spec sz m fq Hs Hm He Hf turns s 0 s1 Es). symmetry. exact (loop_unique _ _ _ _ _ _ _ X E).
Qed.
Lemma tenth : (1 / 10 <= 4 * (Q2R (1 # 2) * Q2R (1 # 2) * Q2R (1 # 2)) / 3)%R.
Proof. unfold Q2R. cbn. lra. Qed.
Lemma hundredth : (1 / 100 <= 4 * (Q2R (1 # 5) * Q2R (1 # 5) * Q2R (1 # 5)) / 3)%R.
Proof. unfold Q2R. cbn. lra. Qed.
(** The tetrahedron is cut at its long edge into six facets; the first facet satisfies the conditions of the last part. *)
Example C91_case : glued (tet_a 0) /\ u_ids (tet_a 0) = zrange 4 /\ (0 < Q2R (7 # 2))%R /\ (Q2R real_eps < Q2R (7 # 2) * Q2R (7 # 2) / 4)%R /\
  (In 0 (u_ids (tet_a 0)) /\ (Q2R (7 # 2) < distance (corner (tet_a 0) 0 2) (corner (tet_a 0) 0 (2 + 1)))%R /\ (1 / 10 <= quality (facet (tet_a 0) 0))%R /\ forall k, ~ free (tet_a 0) 0 k) /\
  exists s', split_facets 9 (Q2R (7 # 2)) (1 / 10) (tet_a 0) = Ok (Some s') /\ u_ids s' = zrange 6 /\ glued s' /\ (forall k, (distance (corner s' 0 k) (corner s' 0 (k + 1)) <= Q2R (7 # 2))%R).
Proof.
  assert (Hs : (0 < 7 # 2)%Q) by reflexivity. split; [apply tet_a_glued; lia|]. split; [reflexivity|]. split; [rewrite <- Q2R_0; now apply Qlt_Rlt|]. split; [unfold Q2R; cbn; lra|]. split.
  - split; [cbn; auto|]. split; [apply (lt_len (7 # 2) (side (facet (tet_a 0) 0) 2) Hs); reflexivity|]. split; [eapply Rle_trans; [exact tenth|]; apply qfine_quality; reflexivity|]. intros k [A _]. destruct (tget_cases k) as [E|[E|E]]; [rewrite (across_mod _ 0 k 0) in A by lia|rewrite (across_mod _ 0 k 1) in A by lia|rewrite (across_mod _ 0 k 2) in A by lia]; discriminate.
  - exists (after 9 (7 # 2) (1 # 2) (tet_a 0)). assert (E : split_facets 9 (Q2R (7 # 2)) (1 / 10) (tet_a 0) = Ok (Some (after 9 (7 # 2) (1 # 2) (tet_a 0)))) by (apply sim_spec with (m := 1 # 2); [reflexivity..|exact tenth|vm_compute; reflexivity]). split; [exact E|]. split; [vm_compute; reflexivity|]. split.
    + destruct (C91_split (tet_a 0) 4 (Q2R (7 # 2)) (1 / 10) (tet_a_glued 0 ltac:(lia) (or_introl eq_refl)) eq_refl ltac:(rewrite <- Q2R_0; now apply Qlt_Rlt) ltac:(unfold Q2R; cbn; lra) ltac:(lra)) as (t & s' & R0 & G & _). specialize (R0 0%nat). rewrite (after_spec 9 (7 # 2) (1 # 2) (1 / 10) (tet_a 0) ltac:(vm_compute; discriminate) ltac:(reflexivity) ltac:(reflexivity) ltac:(reflexivity) tenth _ _ R0) in G. exact G.
    + set (s' := after 9 (7 # 2) (1 # 2) (tet_a 0)). assert (X : forall k, In k [0; 1; 2] -> (distance (corner s' 0 k) (corner s' 0 (k + 1)) <= Q2R (7 # 2))%R). { intros k Ik. apply Rnot_lt_le. intros C. apply (lt_len (7 # 2) (vsub (corner s' 0 (k + 1)) (corner s' 0 k)) Hs) in C. apply Qlt_bool_iff in C. destruct Ik as [<-|[<-|[<-|[]]]]; vm_compute in C; discriminate. }
      intros k. destruct (tget_cases k) as [M|[M|M]]; [rewrite (corner_mod s' 0 k 0), (corner_mod s' 0 (k + 1) (0 + 1)) by lia|rewrite (corner_mod s' 0 k 1), (corner_mod s' 0 (k + 1) (1 + 1)) by lia|rewrite (corner_mod s' 0 k 2), (corner_mod s' 0 (k + 1) (2 + 1)) by lia]; apply X; cbn; auto.
Qed.
(** When the ids do not count from 0 - for instance after a facet was removed - the links of the result lead to facets that do not exist: the same tetrahedron with ids 5, 6, 7, 8. *)
Theorem C91_ids_refuted : exists s size fq, glued s /\ (0 < size)%R /\ (Q2R real_eps < size * size / 4)%R /\ (0 < fq)%R /\ (exists turns s', split_facets turns size fq s = Ok (Some s')) /\
  forall turns s', split_facets turns size fq s = Ok (Some s') -> ~ glued s' /\ exists id k, In id (u_ids s') /\ across s' id k <> -1 /\ ~ In (across s' id k) (u_ids s').
Proof.
  exists (tet_a 5), (Q2R (7 # 2)), (1 / 10)%R. split; [apply tet_a_glued; lia|]. split; [unfold Q2R; cbn; lra|]. split; [unfold Q2R; cbn; lra|]. split; [lra|]. split.
  - exists 9%nat, (after 9 (7 # 2) (1 # 2) (tet_a 5)). apply sim_spec with (m := 1 # 2); [reflexivity..|exact tenth|vm_compute; reflexivity].
  - intros turns s' H. rewrite (after_spec 9 (7 # 2) (1 # 2) (1 / 10) (tet_a 5) ltac:(vm_compute; discriminate) ltac:(reflexivity) ltac:(reflexivity) ltac:(reflexivity) tenth _ _ H).
    assert (X : let s1 := after 9 (7 # 2) (1 # 2) (tet_a 5) in existsb (fun id => existsb (fun k => negb (across s1 id k =? -1) && negb (existsb (Z.eqb (across s1 id k)) (u_ids s1))) [0; 1; 2]) (u_ids s1) = true) by (vm_compute; reflexivity). cbv zeta in X. set (s1 := after 9 (7 # 2) (1 # 2) (tet_a 5)) in *. clearbody s1.
    apply existsb_exists in X. destruct X as (id & I & X). apply existsb_exists in X. destruct X as (k & _ & X). apply andb_true_iff in X. destruct X as [X1 X2]. apply negb_true_iff in X1, X2. apply Z.eqb_neq in X1. assert (X3 : ~ In (across s1 id k) (u_ids s1)) by (intros C; rewrite (proj2 (existsb_exists _ _)) in X2; [discriminate|exists (across s1 id k); split; [exact C|apply Z.eqb_refl]]).
    split; [|now exists id, k]. intros [_ G]. destruct (G id k I) as [[F _]|(nb & l & (L1 & _ & L2 & _) & _)]; [contradiction|]. rewrite L2 in X3. contradiction.
Qed.
Print Assumptions C91_ids_refuted.
(** Edges longer than the size can remain even on a closed surface of good facets, since every facet is looked at once. *)
Theorem C91_size_refuted : exists s n size fq, glued s /\ u_ids s = zrange n /\ (0 < size)%R /\ (Q2R real_eps < size * size / 4)%R /\ (0 < fq)%R /\
  (forall id k, In id (u_ids s) -> ~ free s id k) /\ (forall id, In id (u_ids s) -> (fq <= quality (facet s id))%R) /\ (exists turns s', split_facets turns size fq s = Ok (Some s')) /\
  forall turns s', split_facets turns size fq s = Ok (Some s') -> exists id k, In id (u_ids s') /\ (size < distance (corner s' id k) (corner s' id (k + 1)))%R /\ (fq <= quality (facet s' id))%R.
Proof.
  exists tet_b, 4%nat, (Q2R 5), (1 / 100)%R. split; [exact tet_b_glued|]. split; [reflexivity|]. split; [unfold Q2R; cbn; lra|]. split; [unfold Q2R; cbn; lra|]. split; [lra|].
  split. { intros id k I [A _]. destruct I as [<-|[<-|[<-|[<-|[]]]]]; (destruct (tget_cases k) as [E|[E|E]]; [rewrite (across_mod _ _ k 0) in A by lia|rewrite (across_mod _ _ k 1) in A by lia|rewrite (across_mod _ _ k 2) in A by lia]; discriminate). }
  split. { intros id I. eapply Rle_trans; [exact hundredth|]. apply qfine_quality; [reflexivity..|]. destruct I as [<-|[<-|[<-|[<-|[]]]]]; vm_compute; reflexivity. }
  split. { exists 12%nat, (after 12 5 (1 # 5) tet_b). apply sim_spec with (m := 1 # 5); [reflexivity..|exact hundredth|vm_compute; reflexivity]. }
  intros turns s' H. rewrite (after_spec 12 5 (1 # 5) (1 / 100) tet_b ltac:(vm_compute; discriminate) ltac:(reflexivity) ltac:(reflexivity) ltac:(reflexivity) hundredth _ _ H). set (s1 := after 12 5 (1 # 5) tet_b).
  exists 0, 2. split; [vm_compute; auto|]. split; [apply (lt_len 5 (vsub (corner s1 0 (2 + 1)) (corner s1 0 2)) ltac:(reflexivity)), Qlt_bool_iff; vm_compute; reflexivity|]. eapply Rle_trans; [exact hundredth|]. apply qfine_quality; [reflexivity..|vm_compute; reflexivity].
Qed.
Print Assumptions C91_size_refuted.
(** A facet whose longest edge is on the boundary is never split, whatever its size. *)
Theorem C91_boundary_refuted : exists s, glued s /\ u_ids s = zrange 1 /\ (forall k, (1 <= distance (corner s 0 k) (corner s 0 (k + 1)))%R) /\ (1 / 10 <= quality (facet s 0))%R /\ forall size more, split_facets (2 + more) size (1 / 10) s = Ok (Some s).
Proof.
  set (s := u_add u_empty 0 (SFacet (vec 0 0 0, vec 1 0 0, vec 0 1 0) (-1, -1, -1) (-1, -1, -1))). assert (W : well_stored s) by (apply well_add; [apply well_empty|cbn; auto|lia]). exists s. split; [apply gluedb_spec; [exact W|vm_compute; reflexivity]|]. split; [reflexivity|]. split; [|split].
  - assert (X : forall k, In k [0; 1; 2] -> (1 <= distance (corner s 0 k) (corner s 0 (k + 1)))%R). { intros k Ik. unfold distance. rewrite <- sqrt_1 at 1. apply sqrt_le_1_alt. rewrite <- Q2R_1. apply Qle_Rle, Qle_bool_iff. destruct Ik as [<-|[<-|[<-|[]]]]; vm_compute; reflexivity. }
    intros k. destruct (tget_cases k) as [M|[M|M]]; [rewrite (corner_mod s 0 k 0), (corner_mod s 0 (k + 1) (0 + 1)) by lia|rewrite (corner_mod s 0 k 1), (corner_mod s 0 (k + 1) (1 + 1)) by lia|rewrite (corner_mod s 0 k 2), (corner_mod s 0 (k + 1) (2 + 1)) by lia]; apply X; cbn; auto.
  - eapply Rle_trans; [exact tenth|]. apply qfine_quality; [reflexivity..|vm_compute; reflexivity].
  - intros size more. cbn [Nat.add]. assert (E : split_facets 2 size (1 / 10) s = Ok (Some s)). { unfold split_facets. cbn [split_loop]. change (0 <? u_size s) with true. change (0 + 1 <? u_size s) with false. cbn iota. assert (Y : split_at (split_choice size (1 / 10)) s 0 = Ok s). { unfold split_at. change (u_id s 0) with (Ok (A := Z) 0). cbn [bind]. change (u_get s 0) with (Ok (facet s 0)). cbn [bind]. destruct (split_choice size (1 / 10) (facet s 0)) as [[b fr]|]; [|reflexivity]. assert (Z0 : tget (sf_vn (facet s 0)) b = -1) by (change (sf_vn (facet s 0)) with (-1, -1, -1); destruct (tget_cases b) as [M|[M|M]]; [now apply tget0|now apply tget1|now apply tget2]). rewrite Z0. reflexivity. } rewrite Y. reflexivity. }
    exact (loop_more _ 2 s 0 s more E).
Qed.
Print Assumptions C91_boundary_refuted.
(** The triangle with sides 3, 4, 5: r = 1, R = 5/2. *)
Example C91_quality_case : quality (SFacet (vec 0 0 0, vec 3 0 0, vec 0 4 0) (-1, -1, -1) (-1, -1, -1)) = (4 / 5)%R.
Proof.
  set (f := SFacet (vec 0 0 0, vec 3 0 0, vec 0 4 0) (-1, -1, -1) (-1, -1, -1)).
  assert (Sq : forall (q : Q) (r : R), (0 <= r)%R -> Q2R q = (r * r)%R -> sqrt (Q2R q) = r) by (intros q r Hr ->; now apply sqrt_square).
  assert (E0 : edge f 0 = 3%R) by (apply Sq; [lra|unfold Q2R; cbn; lra]). assert (E1 : edge f 1 = 5%R) by (apply Sq; [lra|unfold Q2R; cbn; lra]). assert (E2 : edge f 2 = 4%R) by (apply Sq; [lra|unfold Q2R; cbn; lra]).
  assert (EA : tri_area (tget (sf_v f) 0) (tget (sf_v f) 1) (tget (sf_v f) 2) = 6%R) by (unfold tri_area; rewrite (Sq _ 12%R); [lra|lra|unfold Q2R; cbn; lra]).
  assert (Ep : (Q2R real_eps < 1 / 100)%R) by (unfold Q2R; cbn; lra).
  assert (H := C91_quality f). cbv zeta in H. rewrite EA, E0, E1, E2 in H. assert (X : forall k, (Q2R real_eps < edge f k * edge f k)%R). { intros k. assert (M : edge f k = 3%R \/ edge f k = 5%R \/ edge f k = 4%R). { rewrite <- E0, <- E1, <- E2. unfold edge. set (t := sf_v f). destruct (tget_cases k) as [M|[M|M]]; [left|right; left|right; right]; [rewrite (tget_mod t k 0), (tget_mod t (k + 1) (0 + 1)) by lia|rewrite (tget_mod t k 1), (tget_mod t (k + 1) (1 + 1)) by lia|rewrite (tget_mod t k 2), (tget_mod t (k + 1) (2 + 1)) by lia]; reflexivity. } destruct M as [M|[M|M]]; rewrite M; lra. }
  specialize (H X ltac:(lra)). lra.
Qed.

(** Moving the vertices of triangulated surfaces. *)
From Coq Require Import ZArith List Bool QArith Reals Qreals Lia Lqa.
From Verif Require Import Prelude Vec ZMap HashGrid_Proofs Mesh_Proofs Surf_Model Surf_Spec Surf_Proofs Remesh_Model Remesh_Spec.
Import ListNotations.
Open Scope Z_scope.
Ltac Zify.zify_post_hook ::= Z.div_mod_to_equations.

(** ** Half-spaces *)
Definition lin (a b c : Q) (p : coord) : Q := (a * cx p + b * cy p + c * cz p)%Q.
Lemma lin_fold a b c d l : forall acc, (forall p, In p l -> (lin a b c p <= d)%Q) -> (lin a b c (fold_left vadd l acc) <= lin a b c acc + d * inject_Z (zlen l))%Q.
Proof.
  induction l as [|p l IH]; intros acc H; cbn [fold_left]; [assert (Z0 : (d * inject_Z (zlen (A := coord) []) == 0)%Q) by (change (inject_Z (zlen (A := coord) [])) with 0%Q; ring); rewrite Z0; lra|]. assert (A := IH (vadd acc p) (fun x Hx => H x (or_intror Hx))). assert (B := H p (or_introl eq_refl)).
  assert (E : (lin a b c (vadd acc p) == lin a b c acc + lin a b c p)%Q) by (unfold lin, vadd; cbn [cx cy cz]; ring). assert (L : (inject_Z (zlen (p :: l)) == inject_Z (zlen l) + 1)%Q) by (unfold zlen; cbn [length]; rewrite Nat2Z.inj_succ; unfold Z.succ; rewrite inject_Z_plus; reflexivity).
  rewrite L. rewrite E in A. assert (d * (inject_Z (zlen l) + 1) == d * inject_Z (zlen l) + d)%Q by ring. lra.
Qed.
Lemma mean_half a b c d l : l <> [] -> (forall p, In p l -> (lin a b c p <= d)%Q) -> (lin a b c (mean l) <= d)%Q.
Proof.
  intros N H. assert (P : (0 < inject_Z (zlen l))%Q). { destruct l as [|p l]; [congruence|]. unfold zlen. cbn [length]. unfold Qlt, inject_Z. cbn. lia. }
  assert (A := lin_fold a b c d l vzero H). assert (Z0 : (lin a b c vzero == 0)%Q) by (unfold lin, vzero; cbn [cx cy cz]; ring). rewrite Z0 in A. unfold mean. set (t := fold_left vadd l vzero) in *. set (k := inject_Z (zlen l)) in *.
  assert (E : (lin a b c (vscale (/ k) t) == / k * lin a b c t)%Q) by (unfold lin, vscale; cbn [cx cy cz]; ring). rewrite E. apply (Qmult_le_l _ _ k P). rewrite Qmult_assoc, Qmult_inv_r by lra. lra.
Qed.

Section Relax.
Variables (out : Z -> Z -> bool) (memo : zmap coord) (s : surf) (n : nat).
Hypothesis G : glued s.
Hypothesis Ei : u_ids s = zrange n.
Hypothesis Sf : simple_fans s.
(** ** Walking around a vertex *)
(** The corners met from corner [edge] of [fac] on, up to facet [i]. *)
Inductive chain (i : Z) : Z -> Z -> list (Z * Z) -> Prop :=
  | chain_last : forall fac edge, out fac edge = false -> across s fac edge = i -> chain i fac edge [(i, apart s fac edge)]
  | chain_more : forall fac edge l, out fac edge = false -> In (across s fac edge) (u_ids s) -> chain i (across s fac edge) ((apart s fac edge + 2) mod 3) l -> chain i fac edge ((across s fac edge, apart s fac edge) :: l).
Lemma across_case id k : In id (u_ids s) -> across s id k = -1 /\ apart s id k = -1 \/ In (across s id k) (u_ids s) /\ 0 <= across s id k /\ 0 <= apart s id k <= 2 /\ across s (across s id k) (apart s id k + 1) = id /\ apart s (across s id k) (apart s id k + 1) = (k + 2) mod 3.
Proof.
  intros I. destruct (proj2 G id k I) as [F|(nb & l & (L1 & L2 & L3 & L4 & L5 & L6) & _)]; [left; exact F|]. right. rewrite L3. split; [exact L1|]. split; [apply (proj1 G); exact L1|]. split; [lia|].
  assert (M : (apart s id k + 1) mod 3 = l mod 3) by lia. rewrite (across_mod s nb _ _ M), (apart_mod s nb _ _ M). auto.
Qed.
Definition like (u : surf) : Prop := u_ids u = u_ids s /\ well_stored u /\ forall id k, link u id k = link s id k.
Lemma like_get u id : like u -> In id (u_ids s) -> u_get u id = Ok (facet u id).
Proof. intros (A & B & _) I. apply u_get_stored, well_stored_in; [exact B|now rewrite A]. Qed.
Lemma like_links u id k : like u -> tget (sf_nb (facet u id)) k = across s id k /\ tget (sf_vn (facet u id)) k = apart s id k.
Proof. intros (_ & _ & L). specialize (L id k). unfold link in L. injection L as A B. auto. Qed.
Lemma fan_ok u i : like u -> forall turns fac edge, In fac (u_ids s) -> exists r, fan turns out u i fac edge = Ok r /\ forall l, r = Some l -> chain i fac edge l.
Proof.
  intros Lu. induction turns as [|t IH]; intros fac edge I; cbn [fan]; [exists None; split; [reflexivity|discriminate]|]. rewrite (like_get u fac Lu I). cbn [bind]. destruct (out fac edge) eqn:O; [exists None; split; [reflexivity|discriminate]|].
  destruct (like_links u fac edge Lu) as [-> ->]. destruct (across_case fac edge I) as [[-> ->]|(In' & P & V & _)]; [exists None; split; [reflexivity|discriminate]|].
  destruct (Z.eqb_spec (across s fac edge) (-1)); [lia|]. rewrite (like_get u _ Lu In'). cbn [bind]. destruct (Z.ltb_spec (apart s fac edge) 0); [lia|].
  destruct t as [|t]; [exists None; split; [reflexivity|discriminate]|]. destruct (Z.eqb_spec (across s fac edge) i) as [E|E]; [exists (Some [(across s fac edge, apart s fac edge)]); split; [reflexivity|]; intros l [= <-]; rewrite E; now constructor|].
  rewrite Z.rem_mod_nonneg by lia. destruct (IH (across s fac edge) ((apart s fac edge + 2) mod 3) In') as (r & R & Hr). rewrite R. cbn [bind]. exists (option_map (cons (across s fac edge, apart s fac edge)) r). split; [reflexivity|].
  destruct r as [l'|]; [|discriminate]. cbn [option_map]. intros l [= <-]. constructor; [exact O|exact In'|now apply Hr].
Qed.
Lemma around_mod id k nb l l' : l mod 3 = l' mod 3 -> In nb (u_ids s) -> around s id k nb l -> across s nb l <> -1 -> around s id k (across s nb l') (apart s nb l' + 2).
Proof. intros E I A N. rewrite <- (across_mod s nb l l' E), <- (apart_mod s nb l l' E). now constructor. Qed.
Lemma chain_facts i fac edge l : chain i fac edge l -> In i (u_ids s) ->
  In (across s fac edge, apart s fac edge) l /\ out fac edge = false /\ (exists v, In (i, v) l) /\
  (forall nb v, In (nb, v) l -> In nb (u_ids s) /\
     (nb = i \/ (In (across s nb (v + 2), apart s nb (v + 2)) l /\ out nb ((v + 2) mod 3) = false)) /\
     ((across s fac edge = nb /\ apart s fac edge = v) \/ exists a b, In (a, b) l /\ across s a (b + 2) = nb /\ apart s a (b + 2) = v)).
Proof.
  intros C Ii. induction C as [fac edge O E|fac edge l O I C IH].
  - rewrite E. split; [now left|]. split; [exact O|]. split; [exists (apart s fac edge); now left|]. intros nb v [[= <- <-]|[]]. split; [exact Ii|]. split; [now left|]. left. auto.
  - destruct IH as (H1 & H2 & (v0 & H3) & H4). set (nb0 := across s fac edge) in *. set (w := apart s fac edge) in *. assert (M : ((w + 2) mod 3) mod 3 = (w + 2) mod 3) by lia.
    rewrite (across_mod s nb0 _ _ M), (apart_mod s nb0 _ _ M) in H1. split; [now left|]. split; [exact O|]. split; [exists v0; now right|]. intros nb v [[= <- <-]|Hin].
    + split; [exact I|]. split; [right; split; [now right|exact H2]|]. left. auto.
    + destruct (H4 nb v Hin) as (A & B & D). split; [exact A|]. split; [destruct B as [B|[B B']]; [now left|right; split; [now right|exact B']]|]. right. destruct D as [[D1 D2]|(a & b & D1 & D2 & D3)].
      * exists nb0, w. split; [now left|]. rewrite (across_mod s nb0 _ _ M) in D1. rewrite (apart_mod s nb0 _ _ M) in D2. auto.
      * exists a, b. split; [now right|auto].
Qed.
Lemma chain_around i j fac edge l : chain i fac edge l -> forall k, k mod 3 = edge mod 3 -> In fac (u_ids s) -> In i (u_ids s) -> around s i j fac k -> forall nb v, In (nb, v) l -> around s i j nb (v + 2).
Proof.
  intros C. induction C as [fac edge O E|fac edge l O I C IH]; intros k Hk If Ii A nb v Hin.
  - destruct Hin as [[= <- <-]|[]]. assert (X := around_mod i j fac k edge Hk If A). rewrite E in X. apply X. rewrite (across_mod s fac k edge Hk), E. assert (P := proj2 (proj2 (proj2 (proj1 G))) i Ii). lia.
  - assert (N : around s i j (across s fac edge) (apart s fac edge + 2)). { apply (around_mod i j fac k edge Hk If A). rewrite (across_mod s fac k edge Hk). assert (P := proj2 (proj2 (proj2 (proj1 G))) _ I). lia. }
    destruct Hin as [[= <- <-]|Hin]; [exact N|]. apply (IH (apart s fac edge + 2)); [lia|exact I|exact Ii|exact N|exact Hin].
Qed.
(** ** Which corners are moved *)
Definition moved (l : list (Z * Z)) (id k : Z) : bool := existsb (fun e => (fst e =? id) && ((snd e + 2) mod 3 =? k mod 3)) l.
Lemma moved_ok l id k : moved l id k = true <-> exists v, In (id, v) l /\ (v + 2) mod 3 = k mod 3.
Proof.
  unfold moved. rewrite existsb_exists. split; [intros ([a v] & H & E); cbn [fst snd] in E; rewrite andb_true_iff, !Z.eqb_eq in E; destruct E as [-> E]; now exists v|]. intros (v & H & E). exists (id, v). split; [exact H|]. cbn [fst snd]. rewrite Z.eqb_refl, E, Z.eqb_refl. reflexivity.
Qed.
Section Ring.
Variables (i j : Z) (l : list (Z * Z)).
Hypothesis Ii : In i (u_ids s).
Hypothesis Hj : 0 <= j < 3.
Hypothesis C : chain i i j l.
Lemma ring_start v : In (i, v) l -> (v + 2) mod 3 = j.
Proof. intros H. assert (A := chain_around i j i j l C j eq_refl Ii Ii (around_start s i j) i v H). assert (X := Sf i j (v + 2) Ii A). lia. Qed.
Lemma ring_in id k : moved l id k = true -> In id (u_ids s).
Proof. intros M. apply moved_ok in M. destruct M as (v & H & _). destruct (chain_facts i i j l C Ii) as (_ & _ & _ & F). exact (proj1 (F id v H)). Qed.
Lemma ring_next id k : moved l id k = true -> out id (k mod 3) = false /\ across s id k <> -1 /\ moved l (across s id k) (apart s id k + 2) = true.
Proof.
  intros M. apply moved_ok in M. destruct M as (v & H & E). destruct (chain_facts i i j l C Ii) as (F1 & F2 & _ & F). destruct (F id v H) as (I & B & _).
  assert (X : out id (k mod 3) = false /\ In (across s id k, apart s id k) l).
  { destruct B as [->|[B B']]; [assert (Y := ring_start v H); rewrite <- E, Y; rewrite (across_mod s i k j), (apart_mod s i k j) by lia; auto|]. rewrite (across_mod s id (v + 2) k E), (apart_mod s id (v + 2) k E) in B. rewrite <- E. auto. }
  destruct X as [X1 X2]. split; [exact X1|]. destruct (F _ _ X2) as (I' & _). split; [assert (P := proj2 (proj2 (proj2 (proj1 G))) _ I'); lia|]. apply moved_ok. now exists (apart s id k).
Qed.
Lemma ring_prev id k : moved l id k = true -> exists a b, In a (u_ids s) /\ moved l a b = true /\ across s a b = id /\ (apart s a b + 2) mod 3 = k mod 3.
Proof.
  intros M. apply moved_ok in M. destruct M as (v & H & E). destruct (chain_facts i i j l C Ii) as (F1 & F2 & (v0 & F3) & F). destruct (F id v H) as (I & _ & [[B1 B2]|(a & b & B1 & B2 & B3)]).
  - exists i, j. split; [exact Ii|]. split; [apply moved_ok; exists v0; split; [exact F3|]; rewrite (ring_start v0 F3); lia|]. rewrite B2. auto.
  - exists a, (b + 2). split; [apply (proj1 (F a b B1))|]. split; [apply moved_ok; now exists b|]. rewrite B3. auto.
Qed.
(** A linked corner is moved with its counterpart. *)
Lemma ring_both id k : In id (u_ids s) -> across s id k <> -1 -> moved l id k = moved l (across s id k) (apart s id k + 2).
Proof.
  intros I N. apply eq_true_iff_eq. split; [intros M; apply (ring_next id k M)|]. intros M. destruct (ring_prev _ _ M) as (a & b & Ia & Ma & A & B).
  destruct (across_case id k I) as [[X _]|(_ & _ & V & X1 & X2)]; [contradiction|]. destruct (across_case a b Ia) as [[Y _]|(_ & _ & W & Y1 & Y2)]; [congruence|].
  rewrite A in Y1, Y2. assert (Q : (apart s a b + 1) mod 3 = (apart s id k + 1) mod 3) by lia. rewrite (across_mod s _ _ _ Q) in Y1. rewrite (apart_mod s _ _ _ Q) in Y2.
  assert (E1 : a = id) by congruence. assert (E2 : b mod 3 = k mod 3) by lia. apply moved_ok in Ma. destruct Ma as (v & H & E). rewrite E1 in H. apply moved_ok. exists v. split; [exact H|]. lia.
Qed.
End Ring.
(** ** Moving *)
Lemma move_all q l : forall u, like u -> (forall nb v, In (nb, v) l -> In nb (u_ids s)) ->
  exists u', foldM (fun u e => g <- u_get u (fst e) ;; Ok (u_put u (fst e) (set_v g (snd e + 2) q))) l u = Ok u' /\ like u' /\ forall id k, corner u' id k = if moved l id k then q else corner u id k.
Proof.
  induction l as [|[nb v] l IH]; intros u Lu H; [exists u; split; [reflexivity|]; split; [exact Lu|reflexivity]|]. assert (I := H nb v (or_introl eq_refl)). cbn [foldM fst snd]. rewrite (like_get u nb Lu I). cbn [bind].
  set (u1 := u_put u nb (set_v (facet u nb) (v + 2) q)).
  assert (L1 : like u1). { destruct Lu as (A & B & D). split; [exact A|]. split; [apply well_put; [exact B|now rewrite A]|]. intros id k. rewrite <- D. unfold link, across, apart, u1. rewrite facet_put. destruct (Z.eqb_spec id nb) as [->|]; reflexivity. }
  assert (C1 : forall id k, corner u1 id k = if (nb =? id) && ((v + 2) mod 3 =? k mod 3) then q else corner u id k).
  { intros id k. unfold corner, u1. rewrite facet_put. rewrite (Z.eqb_sym nb id). destruct (Z.eqb_spec id nb) as [->|]; [|reflexivity]. cbn [andb set_v sf_v]. rewrite tget_tset. reflexivity. }
  destruct (IH u1 L1 (fun a b Hab => H a b (or_intror Hab))) as (u' & R & L' & C'). exists u'. split; [exact R|]. split; [exact L'|]. intros id k. rewrite C', C1. unfold moved. cbn [existsb fst snd]. destruct (existsb _ l); [now rewrite orb_true_r|]. rewrite orb_false_r. reflexivity.
Qed.
(** What holds during the loop. *)
Record relaxing (u : surf) : Prop := {
  rx_like : like u;
  rx_opposite : forall id k nb l, In id (u_ids s) -> linked s id k nb l -> opposite s id k nb l -> opposite u id k nb l;
  rx_marked : forall id k, In id (u_ids s) -> 0 <= k < 3 -> out id k = true -> corner u id k = corner s id k;
  rx_free : forall id k, In id (u_ids s) -> across s id k = -1 -> corner u id k = corner s id k /\ corner u id (k + 1) = corner s id (k + 1);
  rx_half : forall a b c d, (forall id k, In id (u_ids s) -> (lin a b c (corner s id k) <= d)%Q) -> forall id k, In id (u_ids s) -> (lin a b c (corner u id k) <= d)%Q }.
Lemma relaxing_start : relaxing s.
Proof. constructor; auto; split; [reflexivity|]. split; [apply G|reflexivity]. Qed.
Lemma relax_corner_ok u i j : relaxing u -> In i (u_ids s) -> 0 <= j < 3 -> exists u', relax_corner out memo i i u j = Ok u' /\ relaxing u'.
Proof.
  intros X Ii Hj. assert (Lu := rx_like u X). unfold relax_corner. rewrite (like_get u i Lu Ii). cbn [bind]. destruct (out i j) eqn:O; [exists u; split; [reflexivity|exact X]|].
  destruct (fan_ok u i Lu 100 i j Ii) as (r & R & H). rewrite R. cbn [bind]. destruct r as [l|]; [|exists u; split; [reflexivity|exact X]]. assert (C := H l eq_refl). clear R H.
  destruct (chain_facts i i j l C Ii) as (F1 & _ & _ & F).
  set (ps := map (fun e => corner u (fst e) (snd e)) l). assert (Eps : mapM (fun e => g <- u_get u (fst e) ;; Ok (tget (sf_v g) (snd e))) l = Ok ps).
  { apply mapM_ok. intros [nb v] Hin. cbn [fst snd]. rewrite (like_get u nb Lu (proj1 (F nb v Hin))). reflexivity. }
  rewrite Eps. cbn [bind]. assert (Eb : exists bs, mapM (turns_over memo u (mean ps)) l = Ok bs).
  { clear - F Lu. assert (F' : forall e, In e l -> In (fst e) (u_ids s)) by (intros [nb v] Hin; apply (proj1 (F nb v Hin))). clear F. set (q := mean ps). clearbody q. clear ps. induction l as [|e l IH]; [now exists []|]. destruct IH as [bs E]; [intros e' He'; apply F'; now right|]. cbn [mapM]. unfold turns_over at 1. rewrite (like_get u (fst e) Lu (F' e (or_introl eq_refl))). cbn [bind]. rewrite E. cbn [bind]. eexists. reflexivity. }
  destruct Eb as [bs Eb]. rewrite Eb. cbn [bind]. destruct (existsb (fun b => b) bs); [exists u; split; [reflexivity|exact X]|]. set (q := mean ps).
  destruct (move_all q l u Lu (fun a b Hab => proj1 (F a b Hab))) as (u' & R & L' & C'). exists u'. split; [exact R|]. constructor.
  - exact L'.
  - intros id k nb l0 I K Op. destruct (rx_opposite u X id k nb l0 I K Op) as [O1 O2]. destruct K as (K1 & K2 & K3 & K4 & K5 & K6). assert (P := proj2 (proj2 (proj2 (proj1 G))) nb K1). assert (P' := proj2 (proj2 (proj2 (proj1 G))) id I).
    assert (M1 : moved l id k = moved l nb (l0 + 1)). { rewrite (ring_both i j l Ii Hj C id k I) by lia. rewrite K3, K4. unfold moved. clear. induction l as [|e l IH]; [reflexivity|]. cbn [existsb]. rewrite IH. f_equal. f_equal. f_equal. lia. }
    assert (M2 : moved l nb l0 = moved l id (k + 1)). { rewrite (ring_both i j l Ii Hj C nb l0 K1) by lia. rewrite K5, K6. unfold moved. clear. induction l as [|e l IH]; [reflexivity|]. cbn [existsb]. rewrite IH. f_equal. f_equal. f_equal. lia. }
    split; rewrite !C'; [rewrite M2; destruct (moved l id (k + 1)); [reflexivity|exact O1]|rewrite <- M1; destruct (moved l id k); [reflexivity|exact O2]].
  - intros id k I Hk Ho. rewrite C'. destruct (moved l id k) eqn:M; [|now apply (rx_marked u X)]. destruct (ring_next i j l Ii Hj C id k M) as (A & _). rewrite Z.mod_small in A by lia. congruence.
  - intros id k I Ha. rewrite !C'. destruct (rx_free u X id k I Ha) as [A B]. split.
    + destruct (moved l id k) eqn:M; [|exact A]. destruct (ring_next i j l Ii Hj C id k M) as (_ & N & _). contradiction.
    + destruct (moved l id (k + 1)) eqn:M; [|exact B]. destruct (ring_prev i j l Ii Hj C id (k + 1) M) as (a & b & Ia & _ & Q1 & Q2). destruct (across_case a b Ia) as [[Y _]|(_ & _ & W & Y1 & _)]; [rewrite Q1 in Y; assert (P := proj2 (proj2 (proj2 (proj1 G))) id I); lia|].
      rewrite Q1 in Y1. rewrite (across_mod s id _ k) in Y1 by lia. assert (P := proj2 (proj2 (proj2 (proj1 G))) a Ia). lia.
  - intros a b c d Hd id k I. rewrite C'. destruct (moved l id k); [|now apply (rx_half u X)]. apply mean_half; [destruct l; [destruct F1|discriminate]|]. intros p Hp. apply in_map_iff in Hp. destruct Hp as ([nb v] & <- & Hin). apply (rx_half u X a b c d Hd). apply (proj1 (F nb v Hin)).
Qed.
Lemma relax_all : exists u, relax_vertices out memo s = Ok u /\ relaxing u.
Proof.
  unfold relax_vertices. assert (Ln : length (u_ids s) = n) by (rewrite Ei; unfold zrange; now rewrite map_length, seq_length). rewrite Ln.
  assert (Y : forall l u, (forall i, In i l -> 0 <= i < Z.of_nat n) -> relaxing u -> exists u', foldM (fun s i => id <- u_id s i ;; foldM (relax_corner out memo i id) [0; 1; 2] s) l u = Ok u' /\ relaxing u').
  { induction l as [|i l IH]; intros u H X; [exists u; split; [reflexivity|exact X]|]. assert (Hi := H i (or_introl eq_refl)). cbn [foldM].
    assert (U : u_id u i = Ok i). { unfold u_id. rewrite (proj1 (rx_like u X)), Ei. unfold vec_at. destruct (Z.ltb_spec i 0); [lia|]. unfold zrange. rewrite nth_error_map, (nth_error_nth' _ 0%nat) by (rewrite seq_length; lia). rewrite seq_nth by lia. cbn. f_equal. lia. }
    rewrite U. cbn [bind]. assert (I : In i (u_ids s)) by (rewrite Ei, zrange_in; exact Hi).
    destruct (relax_corner_ok u i 0 X I ltac:(lia)) as (u1 & R1 & X1). destruct (relax_corner_ok u1 i 1 X1 I ltac:(lia)) as (u2 & R2 & X2). destruct (relax_corner_ok u2 i 2 X2 I ltac:(lia)) as (u3 & R3 & X3).
    rewrite R1. cbn [bind]. rewrite R2. cbn [bind]. rewrite R3. cbn [bind]. apply IH; [intros x Hx; apply H; now right|exact X3]. }
  apply Y; [intros i Hi; now apply zrange_in|exact relaxing_start].
Qed.
End Relax.

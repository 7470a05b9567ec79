(** C109: remesh of triangulations; C110: remesh of beams. *)
From Coq Require Import ZArith List Bool QArith Lia Lqa Permutation.
From Verif Require Import Prelude Vec ZMap Mesh_Model HashGrid_Model Face_Model Query_Model Merge_Model Mesh_Spec Mesh_Proofs Mesh_Check Face_Spec Face_Proofs
  Front_Model Front_Spec Front_Proofs Front_Finish Tune_Model Tune_Spec Tune_Proofs Tune_Relax Tune_Faces Tune_Props Resize_Model Resize_Spec Resize_Proofs Resize_Beams.
Import ListNotations.
Open Scope Z_scope.

(** generateFaces gives a triangulation the faces remesh needs. *)
Theorem C109_faces : forall n tol m, 1 <= n <= int_max -> (0 <= tol)%Q -> triangulation tol m ->
  exists m' nb, generateFaces n tol m = Ok (m', nb) /\ m_nodes m' = m_nodes m /\ triangulation tol m' /\ with_its_faces m' /\
    (forall id p q r, triangle m' id p q r <-> triangle m id p q r).
Proof.
  intros n tol m Hn Ht (Wm & Rm & Hall & Pm & Hup & Hon & Hne & Hnum).
  destruct (t_ids (m_elems m)) as [|id l] eqn:El; [contradiction|]. destruct (wf_get (m_elems m) id (proj2 (proj2 Wm))) as [e He]; [rewrite El; now left|].
  destruct (Pm _ _ He (Hall _ _ He)) as (p & q & r & En & _).
  assert (Htr : triangle m id p q r) by (exists (e_faces e); rewrite He; pose proof (Hall _ _ He); destruct e; cbn in *; congruence).
  pose proof (spread_ok tol m _ _ _ _ Hup Htr) as Sp.
  destruct (faces_ok n tol m Hn Ht Wm Rm Pm Hall Hon Sp) as (m' & nb & E & A & B & C & Ei & D & F & G & H & I & _ & K).
  destruct (made_faces n tol m m' nb Hn Ht Wm Rm Pm Hall Sp E) as [Hli Hln].
  exists m', nb. split; [exact E|]. split; [exact A|]. split; [|split; [|exact D]].
  - split; [exact B|]. split; [exact C|]. split; [exact F|]. split; [exact G|]. split; [intros i a b c Tr; rewrite A; apply D in Tr; exact (Hup i a b c Tr)|].
    split; [exact K|]. split; [rewrite Ei, El; discriminate|]. intros i Hi. unfold t_size in *. rewrite Ei in *. exact (Hnum i Hi).
  - split; [exact H|]. split; [exact I|]. split; [exact Hli|exact Hln].
Qed.
Print Assumptions C109_faces.

(** remesh comes to an end and succeeds.  Afterwards there is again a triangulation with its faces, so that it can be repeated.
    Boundary and inside stay as they were and the area is the same.  Nodes keep their ids and places; the new ones are in the middle of sides
    that are too long.  A triangle either keeps its corners or has got one of the new nodes, and for each of the latter there is one
    triangle more.  Of two neighbours with a side that is too long in common at least one has been cut. *)
Theorem C109_triangles : forall turns n size tol m, 1 <= n <= int_max -> (0 <= tol)%Q -> (0 < size)%Q -> triangulation tol m -> with_its_faces m ->
  2 * t_size (m_elems m) <= Z.of_nat turns ->
  exists m', remesh turns n size tol m = Ok (Some m') /\ triangulation tol m' /\ with_its_faces m' /\
    (forall a b, net m' a b = net m a b) /\ (total_area2 m' == total_area2 m)%Q /\
    (forall k c, t_get (m_nodes m) k = Ok c -> t_get (m_nodes m') k = Ok c) /\
    (forall k c, t_get (m_nodes m') k = Ok c -> t_get (m_nodes m) k = Ok c \/
       exists a b, In (a, b) (all_sides (m_elems m)) /\ long size m a b /\ middle m a b c) /\
    (exists cut, NoDup cut /\ t_size (m_elems m') = t_size (m_elems m) + zlen cut /\
       forall id, In id (t_ids (m_elems m)) -> In id (t_ids (m_elems m')) /\ (same_corners m m' id \/ cut_open m m' id) /\ (In id cut <-> cut_open m m' id)) /\
    (forall fid f a b g, t_get (m_faces m) fid = Ok f -> In fid (flat_map (faces_listed (m_elems m)) (t_ids (m_elems m))) -> f_haspair f = true -> f_nodes f = [a; b] ->
       t_get (m_faces m) (f_pair f) = Ok g -> long size m a b -> cut_open m m' (f_elem f) \/ cut_open m m' (f_elem g)).
Proof.
  intros turns n size tol m Hn Ht Hs (Wm & Rm & Am & Pm & Um & Onm & Hne & Nm) (Lm & Om & Im & Fm) Htu.
  destruct (remesh_ok size tol Hs m Wm Rm Lm Om Pm Am Um Im Fm Nm Onm turns n Hn Ht Hne Htu) as
    (m' & done & E & W' & R' & A' & P' & U' & L' & O' & F' & On' & N' & I' & Fl' & Net & Ar & Nd & Mid & Old & (Dn & Di & Ds) & St).
  exists m'. split; [exact E|]. split.
  { repeat (split; [assumption|]). split; [|exact N']. intros C. destruct (t_ids (m_elems m)) as [|i l]; [contradiction|].
    destruct (Old i (or_introl eq_refl)) as [X _]. rewrite C in X. destruct X. }
  split; [repeat (split; [assumption|]); assumption|]. split; [exact Net|]. split; [exact Ar|]. split; [exact Nd|]. split; [exact Mid|].
  assert (Co : forall id, In id done -> cut_open m m' id) by (intros id H; exact (proj2 (proj2 (Old id (Di id H))) H)).
  split.
  - exists done. split; [exact Dn|]. split; [exact Ds|]. intros id Hid. destruct (Old id Hid) as (X & Y & Z0). split; [exact X|].
    destruct (in_dec Z.eq_dec id done) as [Hd|Hd].
    + split; [right; auto|]. split; auto.
    + split; [left; auto|]. split; [auto|]. intros (e' & k & He' & Hk & Hni). exfalso. apply Hni. destruct (Y Hd) as (e & e2 & He & He2 & En).
      assert (e2 = e') by congruence. subst e2. rewrite En in Hk. pose proof (proj1 Rm _ _ He) as Fa. rewrite Forall_forall in Fa. auto.
  - intros fid f a b g Hf Hin Hp Hab Hg Hl. apply in_flat_map in Hin. destruct Hin as (id & Hid & Hx). unfold faces_listed in Hx.
    destruct (t_get (m_elems m) id) as [e| |] eqn:He; try destruct Hx. destruct (St id Hid e fid He Hx f a b g Hf Hp Hab Hg Hl); auto.
Qed.
Print Assumptions C109_triangles.

(** ** Concrete cases *)
Definition numbers_of (r : outcome (option mesh)) : option (list (list Z)) :=
  match r with Ok (Some m) => Some (map (fun x => e_nodes (snd x)) (t_map (m_elems m))) | _ => None end.
Definition kite0 : mesh := Mesh (m_nodes kite) t_empty (table_of [(0, tri 0 1 2); (1, tri 1 0 3)]).

Lemma ready_triangulation m : ready m -> numbered_from_zero m -> triangulation (1 # 1000) m.
Proof. intros (A & B & C & D & E & F & G) H. repeat (split; [assumption|]). exact H. Qed.

Example C109_case : triangulation (1 # 1000) kite0 /\
  numbers_of (remesh 10 1 2 (1 # 1000) (with_faces kite0)) = Some [[2; 0; 4]; [0; 3; 4]; [1; 2; 4]; [3; 1; 4]] /\
  numbers_of (remesh 10 1 3 (1 # 1000) (with_faces kite0)) = Some [[0; 1; 2]; [1; 0; 3]].
Proof.
  split; [|split; vm_compute; reflexivity]. apply ready_triangulation; [ready_tac|].
  intros id. cbn. intros [<-|[<-|[]]]; unfold t_size; cbn; lia.
Qed.

(** Twice the area of a polygon seen from above. *)
Fixpoint walk (first : coord) (l : list coord) : Q :=
  match l with
  | [] => 0
  | [p] => cx p * cy first - cx first * cy p
  | p :: (q :: _) as r => cx p * cy q - cx q * cy p + walk first r
  end%Q.
Definition polygons (m : mesh) : Q :=
  Qred (sum (map (fun x => match map (where_ (m_nodes m)) (e_nodes (snd x)) with [] => 0%Q | p :: l => walk p (p :: l) end) (t_map (m_elems m)))).
(** A square and a triangle on one of its sides. *)
Definition house : mesh := Mesh (table_of [(0, Coord 0 0 0); (1, Coord 4 0 0); (2, Coord 4 4 0); (3, Coord 0 4 0); (4, Coord 8 2 0)]) t_empty
  (table_of [(0, Element ET_QUADRILATERAL [0; 1; 2; 3] []); (1, tri 1 4 2)]).
(** A neighbour that is a quadrilateral is treated like a triangle: three of its four corners are overwritten and half of the area is lost. *)
Theorem C109_quadrilateral_refuted : exists m m', wf_mesh m /\ refs_ok m /\ numbered_from_zero m /\
  remesh 10 1 2 (1 # 1000) (with_faces m) = Ok (Some m') /\ (polygons m == 48)%Q /\ (polygons m' == 24)%Q.
Proof.
  exists house. destruct (remesh 10 1 2 (1 # 1000) (with_faces house)) as [[m'|]| |] eqn:E; try (vm_compute in E; discriminate).
  exists m'. split; [now apply wf_meshb_ok|]. split; [now apply refs_okb_ok|]. split.
  { intros id. cbn. intros [<-|[<-|[]]]; unfold t_size; cbn; lia. }
  split; [reflexivity|]. split; [vm_compute; reflexivity|].
  assert (A : match remesh 10 1 2 (1 # 1000) (with_faces house) with Ok (Some m) => polygons m | _ => 0%Q end = 24%Q) by (vm_compute; reflexivity).
  rewrite E in A. rewrite A. reflexivity.
Qed.
Print Assumptions C109_quadrilateral_refuted.

(** With other element ids than 0, 1, ... the flags of the elements are looked for outside of their vector. *)
Theorem C109_numbers_refuted : exists m, ready m /\ remesh 10 1 2 (1 # 1000) (with_faces m) = UB.
Proof. exists kite. split; [ready_tac|vm_compute; reflexivity]. Qed.
Print Assumptions C109_numbers_refuted.

Definition slice0 : mesh := Mesh (m_nodes slice) t_empty (table_of [(0, tri 0 1 2)]).
(** Sides on the boundary are never cut, however long they are. *)
Theorem C109_boundary_refuted : exists m m', triangulation (1 # 1000) m /\ remesh 10 1 (1 # 100) (1 # 1000) (with_faces m) = Ok (Some m') /\
  In (0, 1) (all_sides (m_elems m')) /\ long (1 # 100) m' 0 1.
Proof.
  exists slice0. destruct (remesh 10 1 (1 # 100) (1 # 1000) (with_faces slice0)) as [[m'|]| |] eqn:E; try (vm_compute in E; discriminate).
  exists m'. split. { apply ready_triangulation; [ready_tac|]. intros id. cbn. intros [<-|[]]; unfold t_size; cbn; lia. }
  split; [reflexivity|].
  assert (A : match remesh 10 1 (1 # 100) (1 # 1000) (with_faces slice0) with Ok (Some m) => (all_sides (m_elems m), t_get (m_nodes m) 0, t_get (m_nodes m) 1) | _ => ([], Throw, Throw) end =
    ([(0, 1); (1, 2); (2, 0)], Ok (Coord 0 0 0), Ok (Coord 4 0 0))) by (vm_compute; reflexivity).
  rewrite E in A. injection A as A1 A2 A3. split; [rewrite A1; now left|]. exists (Coord 0 0 0), (Coord 4 0 0). split; [exact A2|]. split; [exact A3|]. reflexivity.
Qed.
Print Assumptions C109_boundary_refuted.

(** ** Beams *)
(** remesh of a mesh of beams, not all of length 0, comes to an end (after as many elements as there are then) and succeeds.  All nodes keep
    their ids and places.  Each beam is replaced by a row of beams in equal steps from its first to its second node, the last one with
    its id; their number is the length by the size, rounded, but at least one.  There are no other elements, and one node more for each
    beam more.  All beams are now shorter than one and a half times the size. *)
Theorem C110_beams : forall n size tol m, 1 <= n <= int_max -> (0 <= tol)%Q -> (0 < size)%Q -> wf_mesh m -> refs_ok m -> all_beams m ->
  (exists id a b pa pb, beam m id a b /\ t_get (m_nodes m) a = Ok pa /\ t_get (m_nodes m) b = Ok pb /\ ~ pa =v= pb) ->
  exists m', (forall turns, t_size (m_elems m') <= Z.of_nat turns -> remesh turns n size tol m = Ok (Some m')) /\ wf_mesh m' /\ refs_ok m' /\ all_beams m' /\
    (forall k c, t_get (m_nodes m) k = Ok c -> t_get (m_nodes m') k = Ok c) /\
    t_size (m_nodes m') - t_size (m_nodes m) = t_size (m_elems m') - t_size (m_elems m) /\
    (exists rows, Permutation (t_ids (m_elems m')) (concat rows) /\
       Forall2 (fun id row => exists a b pa pb, beam m id a b /\ t_get (m_nodes m) a = Ok pa /\ t_get (m_nodes m) b = Ok pb /\
                  divided m' a b pa pb row /\ last row 0 = id /\ nearest size pa pb (length row)) (t_ids (m_elems m)) rows) /\
    (forall id a b pa pb, beam m' id a b -> t_get (m_nodes m') a = Ok pa -> t_get (m_nodes m') b = Ok pb ->
       (norm2 (vsub pb pa) < (3 # 2) * size * ((3 # 2) * size))%Q).
Proof.
  intros n size tol m Hn Ht Hs Wm Rm Bm Hd. destruct (remesh_beams size Hs m Wm Rm Bm n tol Hn Ht Hd) as (m' & E & W' & R' & Nd & Ct & lists & F2 & Pe).
  assert (Sh : forall x, In x (t_ids (m_elems m')) -> exists c d pc pd, beam m' x c d /\ t_get (m_nodes m') c = Ok pc /\ t_get (m_nodes m') d = Ok pd /\ short size (vsub pd pc)).
  { intros x Hx. apply (Permutation_in x Pe) in Hx. destruct (in_lists size m m' lists x F2 Hx) as (y & ids & _ & (a & b & pa & pb & ks & _ & _ & _ & _ & Dv & Nr) & Hx').
    exact (divided_short size m' a b pa pb ids x Hs Dv Nr Hx'). }
  exists m'. split; [exact E|]. split; [exact W'|]. split; [exact R'|].
  split. { intros x Hx. destruct (Sh x Hx) as (c & d & _ & _ & B & _). eauto. }
  split; [exact Nd|]. split; [lia|]. split.
  - exists lists. split; [exact Pe|]. clear - F2. induction F2 as [|y ys l1 l2 Hy Hl IH]; constructor; [|exact IH].
    destruct Hy as (a & b & pa & pb & ks & Q1 & Q2 & Q3 & Q4 & Q5 & Q6). exists a, b, pa, pb. repeat (split; [assumption|]). split; [|exact Q6]. subst ys. apply last_last.
  - intros id a b pa pb [fs B] Pa Pb. destruct (Sh id (wf_get_in _ _ _ (proj2 (proj2 W')) B)) as (c & d & pc & pd & [fs' B'] & Pc & Pd & S0).
    rewrite B in B'. injection B' as <- <- _. replace pa with pc by congruence. replace pb with pd by congruence. unfold short in S0. lra.
Qed.
Print Assumptions C110_beams.

(** The result is not changed by another call: all beams are cut once and for all. *)
Theorem C110_once : forall n size tol m m', 1 <= n <= int_max -> (0 <= tol)%Q -> (0 < size)%Q -> wf_mesh m -> refs_ok m -> all_beams m ->
  (exists id a b pa pb, beam m id a b /\ t_get (m_nodes m) a = Ok pa /\ t_get (m_nodes m) b = Ok pb /\ ~ pa =v= pb) ->
  (forall id a b pa pb, beam m id a b -> t_get (m_nodes m) a = Ok pa -> t_get (m_nodes m) b = Ok pb -> (norm2 (vsub pb pa) < (3 # 2) * size * ((3 # 2) * size))%Q) ->
  forall turns, remesh turns n size tol m = Ok (Some m') -> m_nodes m' = m_nodes m /\ t_ids (m_elems m') = t_ids (m_elems m) /\
    forall id a b, beam m' id a b <-> beam m id a b.
Proof.
  intros n size tol m m' Hn Ht Hs Wm Rm Bm (i0 & a0 & b0 & pa0 & pb0 & B0 & Pa0 & Pb0 & Hne) Sh turns E.
  assert (Hall : forall x, In x (t_ids (m_elems m)) -> exists c d pc pd, beam m x c d /\ t_get (m_nodes m) c = Ok pc /\ t_get (m_nodes m) d = Ok pd /\ short size (vsub pd pc)).
  { intros x Hx. destruct (beam_ends m Wm Rm Bm x Hx) as (a & b & pa & pb & B & Pa & Pb). exists a, b, pa, pb. repeat (split; [assumption|]).
    unfold short. pose proof (Sh x a b pa pb B Pa Pb). lra. }
  unfold remesh in E. destruct (beams_still size m (t_size (m_elems m)) [] Hs Wm Hall turns 0 (Z.le_refl 0)) as [L|L]; rewrite L in E; cbn [bind fst] in E; [|discriminate].
  assert (En : enough m) by (intros x e He; destruct (Hall x (wf_get_in _ _ _ (proj2 (proj2 Wm)) He)) as (c & d & _ & _ & [fs B] & _); rewrite B in He; injection He as <-; cbn; lia).
  assert (Sp : spread m) by (apply (beam_spread m a0 b0 pa0 pb0 [i0]); [now apply divided_one|cbn; lia|assumption|assumption|assumption]).
  destruct (pairing_ok n tol m Hn Ht Wm Rm En Sp) as (m2 & nb & E2 & Enn & W' & R' & Ei & Hel & _). rewrite E2 in E. cbn [bind fst] in E. injection E as <-.
  split; [exact Enn|]. split; [exact Ei|].
  assert (Fw : forall id a b, beam m id a b -> beam m2 id a b).
  { intros x c d [fs Hb]. destruct (Hel x _ Hb) as (e' & fs' & He' & T & N & _). exists (e_faces e'). rewrite He'. destruct e'. cbn in *. congruence. }
  intros id a b. split; [|apply Fw]. intros [fs B]. pose proof (wf_get_in _ _ _ (proj2 (proj2 W')) B) as Hin. rewrite Ei in Hin.
  destruct (Bm id Hin) as (a' & b' & B'). destruct (Fw _ _ _ B') as [fs' B2]. rewrite B in B2. injection B2 as -> -> _. exact B'.
Qed.
Print Assumptions C110_once.

Definition bar (a b : Z) : element := Element ET_BEAM [a; b] [].
(** Two beams of lengths 5 and 1. *)
Definition rods : mesh := Mesh (table_of [(0, Coord 0 0 0); (1, Coord 3 4 0); (5, Coord 3 5 0)]) t_empty (table_of [(2, bar 0 1); (7, bar 1 5)]).
Definition ends_of (r : outcome (option mesh)) : option (list (Z * list Z)) := match r with Ok (Some m) => Some (map (fun x => (fst x, e_nodes (snd x))) (t_map (m_elems m))) | _ => None end.
Definition place_of (r : outcome (option mesh)) (n : Z) : option (Q * Q) :=
  match r with Ok (Some m) => match t_get (m_nodes m) n with Ok c => Some (Qred (cx c), Qred (cy c)) | _ => None end | _ => None end.

Example C110_case : wf_mesh rods /\ refs_ok rods /\ all_beams rods /\ (~ Coord 0 0 0 =v= Coord 3 4 0) /\
  ends_of (remesh 10 1 2 (1 # 1000) rods) = Some [(2, [7; 1]); (7, [1; 5]); (8, [0; 6]); (9, [6; 7])] /\
  place_of (remesh 10 1 2 (1 # 1000) rods) 6 = Some (1, 4 # 3)%Q /\ place_of (remesh 10 1 2 (1 # 1000) rods) 7 = Some (2, 8 # 3)%Q /\
  remesh 2 1 2 (1 # 1000) rods = Ok None.
Proof.
  split; [now apply wf_meshb_ok|]. split; [now apply refs_okb_ok|].
  split. { intros id. cbn. intros [<-|[<-|[]]]; [exists 0, 1|exists 1, 5]; exists []; reflexivity. }
  split. { intros (X & _). discriminate X. }
  split; [vm_compute; reflexivity|]. split; [vm_compute; reflexivity|]. split; vm_compute; reflexivity.
Qed.

(** A size of 0 asks for infinitely many pieces: the number cannot be represented and the conversion is undefined. *)
Theorem C110_zero_refuted : exists m, wf_mesh m /\ refs_ok m /\ all_beams m /\ forall turns n tol, (1 <= turns)%nat -> remesh turns n 0 tol m = UB.
Proof.
  exists rods. destruct C110_case as (A & B & C & _). split; [exact A|]. split; [exact B|]. split; [exact C|].
  intros [|turns] n tol Ht; [lia|reflexivity].
Qed.
Print Assumptions C110_zero_refuted.

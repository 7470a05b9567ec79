(** C77: the PISO flow solver. *)
From Coq Require Import QArith Qminmax Qabs ZArith List Bool Lia Lqa Setoid FinFun.
From Verif Require Import Prelude Vec Piso_Model.
Import ListNotations.
Open Scope Q_scope.

(** ** Vocabulary *)
Definition before {A} (l : list A) (a b : A) : Prop := exists l1 l2 l3, l = l1 ++ a :: l2 ++ b :: l3.
(** A mesh as CFvmMesh::set builds it: every face without neighbour belongs to one cell; a face between two cells belongs to both, is owned by the one that comes
    first, and is seen by them with the same area and opposite normals. *)
Record sound (m : pmesh) : Prop := {
  so_cells : NoDup (pm_cells m);
  so_faces : forall c, In c (pm_cells m) -> NoDup (pm_of m c);
  so_alone : forall c f, In c (pm_cells m) -> In f (pm_of m c) -> pf_pair (pm_face m f) = None -> pf_owner (pm_face m f) = c;
  so_pair : forall c f nb, In c (pm_cells m) -> In f (pm_of m c) -> pf_pair (pm_face m f) = Some nb ->
    let o := pf_owner (pm_face m f) in (c = o \/ c = nb) /\ before (pm_cells m) o nb /\ In f (pm_of m o) /\ In f (pm_of m nb) /\
    pm_area m nb f == pm_area m o f /\ pm_normal m nb f =v= vopp (pm_normal m o f) }.
(** [x] solves the system exactly. *)
Definition row (m : pmesh) (A : matrix) (x : Z -> Q) (c : Z) : Q := qsum (pm_cells m) (fun d => A c d * x d).
Definition solves (m : pmesh) (A : matrix) (b x : Z -> Q) : Prop := forall c, In c (pm_cells m) -> row m A x c == b c.
Definition interior (m : pmesh) (f : Z) : Prop := exists nb, pf_pair (pm_face m f) = Some nb.
Definition boundary (m : pmesh) (f : Z) (t : btype) : Prop := pf_pair (pm_face m f) = None /\ pf_type (pm_face m f) = t.

(** ** Sums *)
Lemma qsum_ext {A} (l : list A) g h : (forall x, In x l -> g x == h x) -> qsum l g == qsum l h.
Proof. induction l as [|x l IH]; intros H; cbn [qsum fold_right]; [reflexivity|]. fold (qsum l g) (qsum l h). rewrite (H x) by now left. rewrite IH by (intros; apply H; now right). reflexivity. Qed.
Lemma qsum_cons {A} (x : A) l g : qsum (x :: l) g = g x + qsum l g.
Proof. reflexivity. Qed.
Lemma qsum_app {A} (l l' : list A) g : qsum (l ++ l') g == qsum l g + qsum l' g.
Proof. induction l as [|x l IH]; cbn [app]; [cbn; ring|]. rewrite !qsum_cons, IH. ring. Qed.
Lemma qsum_add {A} (l : list A) g h : qsum l (fun x => g x + h x) == qsum l g + qsum l h.
Proof. induction l as [|x l IH]; [cbn; ring|]. rewrite !qsum_cons, IH. ring. Qed.
Lemma qsum_scale {A} (l : list A) k g : qsum l (fun x => k * g x) == k * qsum l g.
Proof. induction l as [|x l IH]; [cbn; ring|]. rewrite !qsum_cons, IH. ring. Qed.
Lemma qsum_opp {A} (l : list A) g : qsum l (fun x => - g x) == - qsum l g.
Proof. induction l as [|x l IH]; [cbn; ring|]. rewrite !qsum_cons, IH. ring. Qed.
Lemma qsum_zero {A} (l : list A) g : (forall x, In x l -> g x == 0) -> qsum l g == 0.
Proof. intros H. rewrite (qsum_ext l g (fun _ => 0) H). induction l; [reflexivity|]. rewrite qsum_cons, IHl; [ring|]. intros; apply H; now right. Qed.
Lemma qsum_map {A B} (h : A -> B) l g : qsum (map h l) g = qsum l (fun x => g (h x)).
Proof. induction l as [|x l IH]; [reflexivity|]. cbn [map]. rewrite !qsum_cons, IH. reflexivity. Qed.
Lemma qsum_flat_map {A B} (h : A -> list B) l g : qsum (flat_map h l) g == qsum l (fun x => qsum (h x) g).
Proof. induction l as [|x l IH]; [reflexivity|]. cbn [flat_map]. rewrite qsum_app, qsum_cons, IH. reflexivity. Qed.
Lemma qsum_swap {A B} (l : list A) (k : list B) g : qsum l (fun x => qsum k (g x)) == qsum k (fun y => qsum l (fun x => g x y)).
Proof. induction l as [|x l IH]; [cbn; symmetry; now apply qsum_zero|]. rewrite qsum_cons, IH, <- qsum_add. apply qsum_ext. intros y _. rewrite qsum_cons. reflexivity. Qed.
Lemma qsum_pick (l : list Z) c g : NoDup l -> In c l -> qsum l (fun x => if (x =? c)%Z then g x else 0) == g c.
Proof.
  induction l as [|x l IH]; intros N I; [destruct I|]. inversion N; subst. rewrite qsum_cons. destruct (Z.eqb_spec x c) as [->|E].
  - rewrite (qsum_zero l); [ring|]. intros y Hy. destruct (Z.eqb_spec y c); [subst; contradiction|reflexivity].
  - destruct I as [I|I]; [contradiction|]. rewrite IH by assumption. ring.
Qed.
Lemma qsum_nonneg {A} (l : list A) g : (forall x, In x l -> 0 <= g x) -> 0 <= qsum l g.
Proof. induction l as [|x l IH]; intros H; [apply Qle_refl|]. rewrite qsum_cons. assert (0 <= g x) by (apply H; now left). assert (0 <= qsum l g) by (apply IH; intros; apply H; now right). lra. Qed.
Lemma qsum_zero_each {A} (l : list A) g : (forall x, In x l -> 0 <= g x) -> qsum l g == 0 -> forall x, In x l -> g x == 0.
Proof.
  induction l as [|y l IH]; intros H E x I; [destruct I|]. rewrite qsum_cons in E. assert (Hy : 0 <= g y) by (apply H; now left). assert (Hl : 0 <= qsum l g) by (apply qsum_nonneg; intros; apply H; now right).
  destruct I as [->|I]; [lra|]. apply IH; [intros; apply H; now right|lra|exact I].
Qed.

(** ** Loops over cells and faces *)
Definition visits (m : pmesh) : list (Z * Z) := flat_map (fun c => map (pair c) (pm_of m c)) (pm_cells m).
Lemma each_face_visits {S} m (step : Z -> Z -> S -> S) s : each_face m step s = fold_left (fun s v => step (fst v) (snd v) s) (visits m) s.
Proof.
  unfold each_face, visits. revert s. induction (pm_cells m) as [|c l IH]; intros s; [reflexivity|]. cbn [fold_left flat_map]. rewrite fold_left_app, IH. f_equal.
  revert s. induction (pm_of m c) as [|f fs IHf]; intros s; [reflexivity|]. cbn [fold_left map fst snd]. apply IHf.
Qed.
Lemma in_visits m c f : In (c, f) (visits m) <-> In c (pm_cells m) /\ In f (pm_of m c).
Proof.
  unfold visits. rewrite in_flat_map. split.
  - intros (c' & Hc & H). apply in_map_iff in H. destruct H as (f' & [= -> ->] & Hf). auto.
  - intros [Hc Hf]. exists c. split; [exact Hc|]. now apply in_map.
Qed.
Lemma NoDup_app_intro {A} (l l' : list A) : NoDup l -> NoDup l' -> (forall x, In x l -> ~ In x l') -> NoDup (l ++ l').
Proof. induction 1 as [|x l Hx Hl IH]; intros H' D; [exact H'|]. cbn. constructor; [rewrite in_app_iff; intros [I|I]; [contradiction|]; apply (D x); [now left|exact I]|]. apply IH; [exact H'|]. intros y Hy. apply D. now right. Qed.
Lemma visits_nodup m : sound m -> NoDup (visits m).
Proof.
  intros S. unfold visits. assert (N := so_cells m S). assert (F := so_faces m S). induction (pm_cells m) as [|c l IH]; [constructor|]. cbn [flat_map]. inversion N; subst. apply NoDup_app_intro.
  - apply FinFun.Injective_map_NoDup; [intros x y [= H]; exact H|apply F; now left].
  - apply IH; [assumption|]. intros d Hd. apply F. now right.
  - intros [d f] I J. apply in_map_iff in I. destruct I as (g & [= -> ->] & _). apply in_flat_map in J. destruct J as (e & He & J). apply in_map_iff in J. destruct J as (h & [= -> ->] & _). contradiction.
Qed.
Lemma fold_prefix {S V} (step : S -> V -> S) (P : list V -> S -> Prop) l s :
  P [] s -> (forall done v rest s, l = done ++ v :: rest -> P done s -> P (done ++ [v]) (step s v)) -> P l (fold_left step l s).
Proof.
  intros H0 H. assert (G : forall rest done s, l = done ++ rest -> P done s -> P l (fold_left step rest s)).
  { induction rest as [|v rest IH]; intros done t E Pt; [rewrite app_nil_r in E; subst; exact Pt|]. cbn [fold_left]. apply (IH (done ++ [v])); [rewrite <- app_assoc; exact E|]. now apply (H done v rest). }
  now apply (G l []).
Qed.
Lemma visits_sum m c g : sound m -> In c (pm_cells m) -> qsum (visits m) (fun v => if (fst v =? c)%Z then g (snd v) else 0) == qsum (pm_of m c) g.
Proof.
  intros S I. unfold visits. rewrite qsum_flat_map. transitivity (qsum (pm_cells m) (fun d => if (d =? c)%Z then qsum (pm_of m d) g else 0)).
  - apply qsum_ext. intros d _. rewrite qsum_map. cbn [fst snd]. destruct (d =? c)%Z; [reflexivity|]. now apply qsum_zero.
  - rewrite (qsum_pick (pm_cells m) c (fun d => qsum (pm_of m d) g)); [reflexivity|apply S|exact I].
Qed.
Lemma contains_in m c f : contains m c f = true <-> In f (pm_of m c).
Proof. unfold contains. rewrite existsb_exists. split; [intros (x & I & E); apply Z.eqb_eq in E; now subst|intros I; exists f; split; [exact I|apply Z.eqb_refl]]. Qed.

(** *** What the neighbour of a cell across a face is *)
Definition partner (m : pmesh) (c f nb : Z) : Z := if (pf_owner (pm_face m f) =? c)%Z then nb else pf_owner (pm_face m f).
Lemma before_in {A} (l : list A) a b : before l a b -> In a l /\ In b l.
Proof. intros (l1 & l2 & l3 & ->). split; apply in_or_app; right; [now left|right; apply in_or_app; right; now left]. Qed.
Lemma before_neq {A} (l : list A) a b : NoDup l -> before l a b -> a <> b.
Proof. intros N (l1 & l2 & l3 & ->) ->. apply NoDup_remove_2 in N. apply N. rewrite !in_app_iff. cbn. auto. Qed.
Lemma neighbor_pair m c f nb : sound m -> In c (pm_cells m) -> In f (pm_of m c) -> pf_pair (pm_face m f) = Some nb ->
  exists d, neighbor m c f = Some (Some d) /\ In d (pm_cells m) /\ In f (pm_of m d) /\ c <> d /\
    (c = pf_owner (pm_face m f) /\ d = nb \/ c = nb /\ d = pf_owner (pm_face m f)).
Proof.
  intros S Ic If E. destruct (so_pair m S c f nb Ic If E) as (Hc & B & Fo & Fn & _). assert (Ne := before_neq _ _ _ (so_cells m S) B). destruct (before_in _ _ _ B) as [Io In'].
  unfold neighbor, across. rewrite E. cbv zeta. destruct Hc as [-> | ->].
  - rewrite Z.eqb_refl. apply contains_in in Fn as Fn'. rewrite Fn'. exists nb. repeat split; auto.
  - destruct (Z.eqb_spec (pf_owner (pm_face m f)) nb); [contradiction|]. apply contains_in in Fo as Fo'. rewrite Fo'. exists (pf_owner (pm_face m f)). repeat split; auto.
Qed.
Lemma neighbor_alone m c f : pf_pair (pm_face m f) = None -> neighbor m c f = None.
Proof. intros E. unfold neighbor. now rewrite E. Qed.

(** *** Rows *)
Lemma upd_eq {A} (g : Z -> A) k v : upd g k v k = v.
Proof. unfold upd. now rewrite Z.eqb_refl. Qed.
Lemma upd_ne {A} (g : Z -> A) k v x : x <> k -> upd g k v x = g x.
Proof. unfold upd. intros H. destruct (Z.eqb_spec x k); [contradiction|reflexivity]. Qed.
Lemma row_add m A r d x p c : sound m -> In d (pm_cells m) -> row m (addA A r d x) p c == row m A p c + (if (r =? c)%Z then x * p d else 0).
Proof.
  intros S I. unfold row. destruct (Z.eqb_spec r c) as [<-|E].
  - rewrite <- (qsum_pick (pm_cells m) d (fun e => x * p e)) by (apply S || exact I). rewrite <- qsum_add. apply qsum_ext. intros e _. unfold addA. rewrite upd_eq. unfold upd. destruct (Z.eqb_spec e d) as [->|]; ring.
  - rewrite Qplus_0_r. apply qsum_ext. intros e _. unfold addA. rewrite upd_ne by congruence. reflexivity.
Qed.
Lemma addb_at b r x c : addb b r x c == b c + (if (r =? c)%Z then x else 0).
Proof. unfold addb, upd. rewrite Z.eqb_sym. destruct (Z.eqb_spec r c) as [->|]; ring. Qed.

(** ** The pressure equation *)
Lemma alone_once m (S : sound m) c f done rest : visits m = done ++ (c, f) :: rest -> pf_pair (pm_face m f) = None -> ~ In f (map snd done) /\ ~ In f (map snd rest).
Proof.
  intros E P. assert (N := visits_nodup m S). assert (G : forall d, In (d, f) (visits m) -> d = c).
  { intros d I. assert (J : In (c, f) (visits m)) by (rewrite E; apply in_or_app; right; now left). apply in_visits in I. apply in_visits in J. rewrite <- (so_alone m S d f) by tauto. apply (so_alone m S c f); tauto. }
  rewrite E in N. apply NoDup_remove_2 in N. split; intros I; apply in_map_iff in I; destruct I as ((d, g) & E' & I); cbn in E'; subst g.
  - assert (d = c) by (apply G; rewrite E; apply in_or_app; now left). subst. apply N. apply in_or_app. now left.
  - assert (d = c) by (apply G; rewrite E; apply in_or_app; right; now right). subst. apply N. apply in_or_app. now right.
Qed.
Section Pressure.
Context (m : pmesh) (S : sound m) (s : flow) (ap : Z -> Q) (H : Z -> coord).
(** Row minus right-hand side, face by face. *)
Definition net (p : Z -> Q) (c f : Z) : Q :=
  match neighbor m c f with
  | Some (Some d) => conduct m ap c f (Some d) * (p d - p c) + open_flux m ap H c f (Some d)
  | Some None => 0
  | None =>
    match pf_type (pm_face m f) with
    | BT_INLET_FLOW => s_flux s f
    | BT_INLET_PRESSURE => conduct m ap c f None * (s_pf s f - p c) + open_flux m ap H c f None
    | BT_OUTLET => - conduct m ap c f None * p c + open_flux m ap H c f None
    | BT_WALL_NO_SLIP | BT_OTHER => 0
    end
  end.
Lemma pressure_row p c : In c (pm_cells m) -> row m (q_A (pressure m s ap H)) p c - q_b (pressure m s ap H) c == qsum (pm_of m c) (net p c).
Proof.
  intros Ic. unfold pressure. rewrite each_face_visits. rewrite <- (visits_sum m c (net p c) S Ic).
  apply (fold_prefix (fun q v => pressure_face m s ap H (fst v) (snd v) q)
    (fun done q => row m (q_A q) p c - q_b q c == qsum done (fun v => if (fst v =? c)%Z then net p c (snd v) else 0) /\ forall f, ~ In f (map snd done) -> q_flux q f = s_flux s f)).
  - split; [|reflexivity]. cbn [q_A q_b]. unfold row. rewrite qsum_zero; [cbn; ring|]. intros; ring.
  - intros done (c', f) rest q E (R & Fl). cbn [fst snd]. assert (J : In (c', f) (visits m)) by (rewrite E; apply in_or_app; right; now left). apply in_visits in J. destruct J as [Ic' If].
    split.
    + rewrite qsum_app, <- R. rewrite qsum_cons. cbn [qsum fold_right fst snd]. unfold pressure_face. destruct (pf_pair (pm_face m f)) as [nb|] eqn:Ep.
      * destruct (neighbor_pair m c' f nb S Ic' If Ep) as (d & En & Id & _). rewrite En. cbn [q_A q_b]. rewrite !row_add by assumption. rewrite !addb_at. destruct (Z.eqb_spec c' c) as [->|]; [|ring]. unfold net. rewrite En. ring.
      * rewrite (neighbor_alone m c' f Ep). destruct (pf_type (pm_face m f)) eqn:Et; cbn [q_A q_b]; rewrite ?row_add by assumption; rewrite ?addb_at; (destruct (Z.eqb_spec c' c) as [->|]; [|ring]); unfold net; rewrite (neighbor_alone m c f Ep), Et; try ring.
        rewrite Fl by (apply (alone_once m S c f done rest E Ep)). ring.
    + intros g Hg. rewrite map_app, in_app_iff in Hg. cbn in Hg. assert (g <> f) by (intros ->; apply Hg; auto). assert (Hd : ~ In g (map snd done)) by tauto. unfold pressure_face.
      destruct (neighbor m c' f) as [[d|]|]; cbn [q_flux]; rewrite ?upd_ne by assumption; auto. destruct (pf_type (pm_face m f)); cbn [q_flux]; rewrite ?upd_ne by assumption; auto.
Qed.
End Pressure.
Lemma fold_last {St V T} (step : St -> V -> St) (pi : St -> T) V1 v V2 s :
  (forall w t, In w V2 -> pi (step t w) = pi t) -> pi (fold_left step (V1 ++ v :: V2) s) = pi (step (fold_left step V1 s) v).
Proof.
  intros K. rewrite fold_left_app. cbn [fold_left]. generalize (step (fold_left step V1 s) v). induction V2 as [|w V2 IH]; intros t; [reflexivity|]. cbn [fold_left]. rewrite IH by (intros; apply K; now right). apply K. now left.
Qed.
Lemma fold_keeps {St V T} (step : St -> V -> St) (pi : St -> T) l s : (forall w t, In w l -> pi (step t w) = pi t) -> pi (fold_left step l s) = pi s.
Proof. revert s. induction l as [|w l IH]; intros s K; [reflexivity|]. cbn [fold_left]. rewrite IH by (intros; apply K; now right). apply K. now left. Qed.
(** The last cell to look at a face between two cells is the second one. *)
Lemma last_visit m c f nb : sound m -> In c (pm_cells m) -> In f (pm_of m c) -> pf_pair (pm_face m f) = Some nb -> exists V1 V2, visits m = V1 ++ (nb, f) :: V2 /\ ~ In f (map snd V2).
Proof.
  intros S Ic If E. destruct (so_pair m S c f nb Ic If E) as (_ & (l1 & l2 & l3 & B) & Fo & Fn & _). assert (N := so_cells m S).
  apply in_split in Fn as (a & b & Fn). exists (flat_map (fun c => map (pair c) (pm_of m c)) (l1 ++ pf_owner (pm_face m f) :: l2) ++ map (pair nb) a), (map (pair nb) b ++ flat_map (fun c => map (pair c) (pm_of m c)) l3).
  split.
  - unfold visits. rewrite B. replace (l1 ++ pf_owner (pm_face m f) :: l2 ++ nb :: l3) with ((l1 ++ pf_owner (pm_face m f) :: l2) ++ nb :: l3) by (rewrite <- app_assoc; reflexivity). rewrite flat_map_app. cbn [flat_map]. rewrite Fn, map_app. cbn [map]. rewrite <- !app_assoc. reflexivity.
  - rewrite map_app, in_app_iff. intros [I|I].
    + rewrite map_map in I. cbn in I. rewrite map_id in I. assert (Nf := so_faces m S nb). rewrite Fn in Nf. apply NoDup_remove_2 in Nf; [apply Nf; apply in_or_app; now right|]. rewrite B. apply in_or_app; right; right; apply in_or_app; right; now left.
    + apply in_map_iff in I. destruct I as ((d, g) & Eg & I). cbn in Eg. subst g. apply in_flat_map in I. destruct I as (d' & Id & I). apply in_map_iff in I. destruct I as (g & [= -> ->] & Ig).
      assert (Icd : In d (pm_cells m)) by (rewrite B; apply in_or_app; right; right; apply in_or_app; right; now right).
      destruct (so_pair m S d f nb Icd Ig E) as ([-> | ->] & _).
      * rewrite B in N. apply NoDup_remove_2 in N. apply N. apply in_or_app; right; apply in_or_app; right; now right.
      * rewrite B in N. replace (l1 ++ pf_owner (pm_face m f) :: l2 ++ nb :: l3) with ((l1 ++ pf_owner (pm_face m f) :: l2) ++ nb :: l3) in N by (rewrite <- app_assoc; reflexivity). apply NoDup_remove_2 in N. apply N. apply in_or_app; now right.
Qed.
Lemma pressure_flux_pair m s ap H c f nb : sound m -> In c (pm_cells m) -> In f (pm_of m c) -> pf_pair (pm_face m f) = Some nb ->
  q_flux (pressure m s ap H) f = open_flux m ap H nb f (Some (pf_owner (pm_face m f))).
Proof.
  intros S Ic If E. destruct (last_visit m c f nb S Ic If E) as (V1 & V2 & Ev & Nf). unfold pressure. rewrite each_face_visits, Ev.
  rewrite (fold_last _ (fun q => q_flux q f)).
  - cbn [fst snd]. destruct (so_pair m S c f nb Ic If E) as (_ & B & Fo & Fn & _). destruct (before_in _ _ _ B) as [Io Ib]. assert (Ne := before_neq _ _ _ (so_cells m S) B).
    destruct (neighbor_pair m nb f nb S Ib Fn E) as (d & En & _ & _ & _ & [[A _]|[_ ->]]); [now rewrite A in Ne|]. unfold pressure_face. rewrite En. cbn [q_flux]. apply upd_eq.
  - intros (d, g) t I. cbn [fst snd]. assert (f <> g) by (intros ->; apply Nf; apply in_map_iff; now exists (d, g)). unfold pressure_face. destruct (neighbor m d g) as [[e|]|]; cbn [q_flux]; rewrite ?upd_ne by assumption; auto. destruct (pf_type (pm_face m g)); cbn [q_flux]; rewrite ?upd_ne by assumption; auto.
Qed.
Lemma pressure_flux_alone m s ap H c f : sound m -> In c (pm_cells m) -> In f (pm_of m c) -> pf_pair (pm_face m f) = None ->
  q_flux (pressure m s ap H) f = match pf_type (pm_face m f) with
    | BT_INLET_FLOW => - dot (s_velf s f) (pm_normal m c f) * pm_area m c f | BT_INLET_PRESSURE | BT_OUTLET => open_flux m ap H c f None | _ => s_flux s f end.
Proof.
  intros S Ic If E. assert (I : In (c, f) (visits m)) by (now apply in_visits). apply in_split in I as (V1 & V2 & Ev). destruct (alone_once m S c f V1 V2 Ev E) as [N1 N2].
  assert (K : forall V t, ~ In f (map snd V) -> forall w, In w V -> q_flux (pressure_face m s ap H (fst w) (snd w) t) f = q_flux t f /\ q_velf (pressure_face m s ap H (fst w) (snd w) t) f = q_velf t f).
  { intros V t Nf (d, g) I. cbn [fst snd]. assert (f <> g) by (intros ->; apply Nf; apply in_map_iff; now exists (d, g)). unfold pressure_face. destruct (neighbor m d g) as [[e|]|]; cbn [q_flux q_velf]; rewrite ?upd_ne by assumption; auto. destruct (pf_type (pm_face m g)); cbn [q_flux q_velf]; rewrite ?upd_ne by assumption; auto. }
  unfold pressure. rewrite each_face_visits, Ev. rewrite (fold_last _ (fun q => q_flux q f)) by (intros w t I; now apply (K V2)). cbn [fst snd].
  set (t := fold_left _ V1 _). assert (T1 : q_flux t f = s_flux s f) by (unfold t; rewrite (fold_keeps _ (fun q => q_flux q f)); [reflexivity|intros w u I; now apply (K V1)]). assert (T2 : q_velf t f = s_velf s f) by (unfold t; rewrite (fold_keeps _ (fun q => q_velf q f)); [reflexivity|intros w u I; now apply (K V1)]).
  unfold pressure_face. rewrite (neighbor_alone m c f E). destruct (pf_type (pm_face m f)); cbn [q_flux]; rewrite ?upd_eq, ?T2; auto.
Qed.
(** *** Correction *)
Lemma correct_keeps m ap p c g f t : f <> g -> fst (correct_face m ap p c g t) f = fst t f /\ snd (correct_face m ap p c g t) f = snd t f.
Proof.
  intros N. destruct t as [flux pf]. unfold correct_face. destruct (neighbor m c g) as [[d|]|]; cbn [fst snd].
  - destruct (_ =? _)%Z; cbn [fst snd]; rewrite ?upd_ne by assumption; auto.
  - auto.
  - destruct (pf_type (pm_face m g)); cbn [fst snd]; rewrite ?upd_ne by assumption; auto.
Qed.
Lemma correct_pair m ap p flux pf c f nb : sound m -> In c (pm_cells m) -> In f (pm_of m c) -> pf_pair (pm_face m f) = Some nb ->
  let o := pf_owner (pm_face m f) in
  fst (correct_flux m ap p flux pf) f = flux f - conduct m ap o f (Some nb) * (p nb - p o) /\ snd (correct_flux m ap p flux pf) f = pf f.
Proof.
  intros S Ic If E o. destruct (so_pair m S c f nb Ic If E) as (_ & B & Fo & Fn & _). destruct (before_in _ _ _ B) as [Io Ib]. assert (Ne := before_neq _ _ _ (so_cells m S) B). fold o in B, Fo, Io, Ne.
  assert (I : In (o, f) (visits m)) by now apply in_visits. apply in_split in I as (V1 & V2 & Ev). assert (N := visits_nodup m S). rewrite Ev in N. apply NoDup_remove_2 in N.
  assert (K : forall w t, In w (V1 ++ V2) -> fst (correct_face m ap p (fst w) (snd w) t) f = fst t f /\ snd (correct_face m ap p (fst w) (snd w) t) f = snd t f).
  { intros (d, g) t I. cbn [fst snd]. destruct (Z.eq_dec f g) as [<-|Nfg]; [|now apply correct_keeps]. assert (d <> o) by (intros ->; contradiction).
    assert (J : In (d, f) (visits m)) by (rewrite Ev; apply in_app_iff in I; apply in_or_app; destruct I; [now left|right; now right]). apply in_visits in J. destruct J as [Jd Jf]. destruct (neighbor_pair m d f nb S Jd Jf E) as (e & En & _).
    destruct t as [fl pf']. unfold correct_face. rewrite En. fold o. destruct (Z.eqb_spec o d); [congruence|auto]. }
  destruct (neighbor_pair m o f nb S Io Fo E) as (d & En & _ & _ & _ & [[_ ->]|[A _]]); [|contradiction].
  unfold correct_flux. rewrite each_face_visits, Ev. split.
  - rewrite (fold_last _ (fun t => fst t f)) by (intros w t I; apply K; apply in_or_app; now right). cbn [fst snd]. assert (T : fst (fold_left (fun s v => correct_face m ap p (fst v) (snd v) s) V1 (flux, pf)) f = flux f).
    { rewrite (fold_keeps _ (fun t => fst t f)); [reflexivity|]. intros w t I. apply K. apply in_or_app. now left. }
    destruct (fold_left _ V1 _) as [fl pf']. cbn [fst] in T. unfold correct_face. rewrite En. fold o. rewrite Z.eqb_refl. cbn [fst]. rewrite upd_eq, T. reflexivity.
  - rewrite (fold_keeps _ (fun t => snd t f)); [reflexivity|]. intros w t I. apply in_app_iff in I. destruct I as [I|[<-|I]]; [apply K; apply in_or_app; now left| |apply K; apply in_or_app; now right].
    destruct t as [fl pf']. cbn [fst snd]. unfold correct_face. rewrite En. destruct (_ =? _)%Z; reflexivity.
Qed.
Lemma correct_alone m ap p flux pf c f : sound m -> In c (pm_cells m) -> In f (pm_of m c) -> pf_pair (pm_face m f) = None ->
  let k := conduct m ap c f None in
  fst (correct_flux m ap p flux pf) f = match pf_type (pm_face m f) with
     | BT_WALL_NO_SLIP => 0 | BT_INLET_PRESSURE => flux f + k * (pf f - p c) | BT_OUTLET => flux f + k * p c | _ => flux f end /\
  snd (correct_flux m ap p flux pf) f = match pf_type (pm_face m f) with BT_WALL_NO_SLIP | BT_INLET_FLOW => p c | BT_OUTLET => 0 | _ => pf f end.
Proof.
  intros S Ic If E k. assert (I : In (c, f) (visits m)) by (now apply in_visits). apply in_split in I as (V1 & V2 & Ev). destruct (alone_once m S c f V1 V2 Ev E) as [N1 N2].
  assert (K : forall V, ~ In f (map snd V) -> forall w t, In w V -> fst (correct_face m ap p (fst w) (snd w) t) f = fst t f /\ snd (correct_face m ap p (fst w) (snd w) t) f = snd t f).
  { intros V Nf (d, g) t I. apply correct_keeps. cbn. intros ->. apply Nf. apply in_map_iff. now exists (d, g). }
  unfold correct_flux. rewrite each_face_visits, Ev.
  rewrite (fold_last _ (fun t => fst t f)) by (intros w t I; now apply (K V2)). rewrite (fold_last _ (fun t => snd t f)) by (intros w t I; now apply (K V2)). cbn [fst snd].
  assert (T1 : fst (fold_left (fun s v => correct_face m ap p (fst v) (snd v) s) V1 (flux, pf)) f = flux f) by (rewrite (fold_keeps _ (fun t => fst t f)); [reflexivity|intros w t I; now apply (K V1)]).
  assert (T2 : snd (fold_left (fun s v => correct_face m ap p (fst v) (snd v) s) V1 (flux, pf)) f = pf f) by (rewrite (fold_keeps _ (fun t => snd t f)); [reflexivity|intros w t I; now apply (K V1)]).
  destruct (fold_left _ V1 _) as [fl pf']. cbn [fst snd] in T1, T2. unfold correct_face. rewrite (neighbor_alone m c f E). fold k. destruct (pf_type (pm_face m f)); cbn [fst snd]; rewrite ?upd_eq, ?T1, ?T2; auto.
Qed.

(** ** Mass *)
Lemma dot_opp a b n n' : n' =v= vopp n -> a =v= b -> dot a n' == - dot b n.
Proof. intros (E1 & E2 & E3) (F1 & F2 & F3). unfold dot, vopp in *. cbn in *. rewrite E1, E2, E3, F1, F2, F3. ring. Qed.
Lemma conduct_sym m ap c d f : conduct m ap c f (Some d) == conduct m ap d f (Some c).
Proof. unfold conduct. rewrite (Qplus_comm (ap c)), (Qplus_comm (pm_dist m c f)), (Qplus_comm (pm_area m c f)). reflexivity. Qed.
Lemma open_flux_sym m ap H c f nb : sound m -> In c (pm_cells m) -> In f (pm_of m c) -> pf_pair (pm_face m f) = Some nb ->
  let o := pf_owner (pm_face m f) in open_flux m ap H nb f (Some o) == - open_flux m ap H o f (Some nb).
Proof.
  intros S Ic If E o. destruct (so_pair m S c f nb Ic If E) as (_ & _ & _ & _ & Ea & En). fold o in Ea, En. unfold open_flux.
  rewrite (dot_opp _ (vscale (1 # 2) (vadd (H o) (H nb))) _ _ En) by (unfold veq, vscale, vadd; cbn; repeat split; ring). rewrite (Qplus_comm (ap nb)), (Qplus_comm (pm_area m nb f)). unfold Qdiv. ring.
Qed.
Section Mass.
Context (m : pmesh) (S : sound m) (s : flow) (ap : Z -> Q) (H : Z -> coord) (p : Z -> Q).
Let q := pressure m s ap H.
Let flux := fst (correct_flux m ap p (q_flux q) (s_pf s)).
Lemma interior_net c f nb : In c (pm_cells m) -> In f (pm_of m c) -> pf_pair (pm_face m f) = Some nb -> seen m flux c f == - net m s ap H p c f.
Proof.
  intros Ic If E. unfold flux, q. destruct (correct_pair m ap p (q_flux (pressure m s ap H)) (s_pf s) c f nb S Ic If E) as [Ef _]. unfold seen. rewrite Ef, (pressure_flux_pair m s ap H c f nb S Ic If E).
  assert (Os := open_flux_sym m ap H c f nb S Ic If E). cbv zeta in Os. unfold net. destruct (neighbor_pair m c f nb S Ic If E) as (d & -> & _ & _ & Ncd & [[Ec ->]|[Ec Ed]]).
  - rewrite Ec at 1. rewrite Z.eqb_refl, Os. rewrite Ec. ring.
  - rewrite <- Ed, <- Ec in *. destruct (Z.eqb_spec d c); [congruence|]. rewrite (conduct_sym m ap c d). ring.
Qed.
Lemma cell_mass c : In c (pm_cells m) -> row m (q_A q) p c == q_b q c -> mass_error m flux c == qsum (pm_of m c) (fun f => seen m flux c f + net m s ap H p c f).
Proof. intros Ic E. unfold mass_error. assert (R := pressure_row m S s ap H p c Ic). fold q in R. rewrite E in R. rewrite qsum_add, <- R. ring. Qed.
End Mass.
(** The pressure system that one iteration solves. *)
Definition pressure_system (m : pmesh) (solve_u : solver) (dt : Q) (s : flow) : pressure_state :=
  let A := fst (momentum m dt s) in let b := snd (momentum m dt s) in
  pressure m s (fun c => A c c) (predicted m s A b (solve3 solve_u A b)).
Lemma iterate_flux m su sp dt s : let A := fst (momentum m dt s) in let q := pressure_system m su dt s in
  s_flux (iterate m su sp dt s) = fst (correct_flux m (fun c => A c c) (sp (q_A q) (q_b q)) (q_flux q) (s_pf s)).
Proof. unfold iterate, pressure_system. destruct (momentum m dt s) as [A b]. cbn [fst snd]. destruct (correct_flux _ _ _ _ _). reflexivity. Qed.
(** Whatever the state: once the pressure system is solved exactly, the mass error of a cell without outlet is what its inlets had before plus what they have now (flow
    given) and twice what they have now (pressure given). *)
Theorem C77_mass_error : forall m su sp dt s, sound m -> let q := pressure_system m su dt s in solves m (q_A q) (q_b q) (sp (q_A q) (q_b q)) ->
  let s' := iterate m su sp dt s in
  forall c, In c (pm_cells m) -> (forall f, In f (pm_of m c) -> interior m f \/ boundary m f BT_WALL_NO_SLIP \/ boundary m f BT_INLET_FLOW \/ boundary m f BT_INLET_PRESSURE) ->
  mass_error m (s_flux s') c == qsum (pm_of m c) (fun f => match pf_pair (pm_face m f), pf_type (pm_face m f) with
    | None, BT_INLET_FLOW => s_flux s f + s_flux s' f | None, BT_INLET_PRESSURE => 2 * s_flux s' f | _, _ => 0 end).
Proof.
  intros m su sp dt s S q Sol s' c Ic Hf. unfold s'. rewrite iterate_flux. fold q. unfold q, pressure_system in *. set (A := fst (momentum m dt s)) in *. set (H := predicted _ _ _ _ _) in *. set (ap := fun c => A c c) in *. set (p := sp _ _) in *.
  rewrite (cell_mass m S s ap H p c Ic (Sol c Ic)). apply qsum_ext. intros f If. destruct (Hf f If) as [[nb E]|[[E T]|[[E T]|[E T]]]]; rewrite E.
  - rewrite (interior_net m S s ap H p c f nb Ic If E). ring.
  - rewrite T. unfold seen, net. rewrite (neighbor_alone m c f E), T, (so_alone m S c f Ic If E), Z.eqb_refl. destruct (correct_alone m ap p (q_flux (pressure m s ap H)) (s_pf s) c f S Ic If E) as [-> _]. rewrite T. ring.
  - rewrite T. unfold seen, net. rewrite (neighbor_alone m c f E), T, (so_alone m S c f Ic If E), Z.eqb_refl. ring.
  - rewrite T. unfold seen, net. rewrite (neighbor_alone m c f E), T, (so_alone m S c f Ic If E), Z.eqb_refl. destruct (correct_alone m ap p (q_flux (pressure m s ap H)) (s_pf s) c f S Ic If E) as [-> _]. rewrite T, (pressure_flux_alone m s ap H c f S Ic If E), T. ring.
Qed.
Print Assumptions C77_mass_error.
(** Cells between other cells and walls. *)
Theorem C77_mass_conserved : forall m su sp dt s, sound m -> let q := pressure_system m su dt s in solves m (q_A q) (q_b q) (sp (q_A q) (q_b q)) ->
  forall c, In c (pm_cells m) -> (forall f, In f (pm_of m c) -> interior m f \/ boundary m f BT_WALL_NO_SLIP) -> mass_error m (s_flux (iterate m su sp dt s)) c == 0.
Proof.
  intros m su sp dt s S q Sol c Ic Hf. rewrite (C77_mass_error m su sp dt s S Sol c Ic) by (intros f If; destruct (Hf f If); auto). apply qsum_zero. intros f If. destruct (Hf f If) as [[nb E]|[E T]]; rewrite E; [reflexivity|]. now rewrite T.
Qed.
Print Assumptions C77_mass_conserved.

(** ** Sums over all cells, face by face *)
Definition all_faces (m : pmesh) : list Z := nodup Z.eq_dec (flat_map (pm_of m) (pm_cells m)).
Lemma in_all_faces m f : In f (all_faces m) <-> exists c, In c (pm_cells m) /\ In f (pm_of m c).
Proof. unfold all_faces. rewrite nodup_In, in_flat_map. reflexivity. Qed.
Lemma qsum_incl l F g : NoDup F -> NoDup l -> (forall f, In f l -> In f F) -> qsum l g == qsum F (fun f => if existsb (Z.eqb f) l then g f else 0).
Proof.
  intros NF. revert g. induction l as [|x l IH]; intros g N I; [symmetry; apply qsum_zero; reflexivity|]. inversion N; subst. rewrite qsum_cons, IH by (assumption || (intros; apply I; now right)).
  rewrite <- (qsum_pick F x g) by (assumption || (apply I; now left)). rewrite <- qsum_add. apply qsum_ext. intros f _. cbn [existsb]. destruct (Z.eqb_spec f x) as [->|].
  - cbn. destruct (existsb (Z.eqb x) l) eqn:E; [|ring]. apply existsb_exists in E. destruct E as (y & Iy & Ey). apply Z.eqb_eq in Ey. subst. contradiction.
  - cbn. destruct (existsb (Z.eqb f) l); ring.
Qed.
Lemma pair_sum m g : sound m -> qsum (pm_cells m) (fun c => qsum (pm_of m c) (g c)) ==
  qsum (all_faces m) (fun f => match pf_pair (pm_face m f) with Some nb => g (pf_owner (pm_face m f)) f + g nb f | None => g (pf_owner (pm_face m f)) f end).
Proof.
  intros S. transitivity (qsum (pm_cells m) (fun c => qsum (all_faces m) (fun f => if contains m c f then g c f else 0))).
  - apply qsum_ext. intros c Ic. apply (qsum_incl (pm_of m c) (all_faces m) (g c)); [apply NoDup_nodup|now apply S|]. intros f If. apply in_all_faces. eauto.
  - rewrite qsum_swap. apply qsum_ext. intros f If. apply in_all_faces in If. destruct If as (c & Ic & If). destruct (pf_pair (pm_face m f)) as [nb|] eqn:E.
    + destruct (so_pair m S c f nb Ic If E) as (_ & B & Fo & Fn & _). destruct (before_in _ _ _ B) as [Io Ib]. assert (Ne := before_neq _ _ _ (so_cells m S) B). set (o := pf_owner (pm_face m f)) in *.
      rewrite <- (qsum_pick (pm_cells m) o (fun c => g c f)) by (apply S || assumption). rewrite <- (qsum_pick (pm_cells m) nb (fun c => g c f)) by (apply S || assumption). rewrite <- qsum_add. apply qsum_ext. intros d Id.
      destruct (contains m d f) eqn:C.
      * apply contains_in in C. destruct (so_pair m S d f nb Id C E) as ([-> | ->] & _); fold o; rewrite Z.eqb_refl; [destruct (Z.eqb_spec o nb); [contradiction|ring]|destruct (Z.eqb_spec nb o); [congruence|ring]].
      * destruct (Z.eqb_spec d o) as [->|]; [apply contains_in in Fo; congruence|]. destruct (Z.eqb_spec d nb) as [->|]; [apply contains_in in Fn; congruence|ring].
    + rewrite (so_alone m S c f Ic If E). rewrite <- (qsum_pick (pm_cells m) c (fun c => g c f)) by (apply S || assumption). apply qsum_ext. intros d Id. destruct (contains m d f) eqn:C.
      * apply contains_in in C. assert (d = c) by (rewrite <- (so_alone m S d f Id C E); now apply (so_alone m S c f)). subst. rewrite Z.eqb_refl. reflexivity.
      * destruct (Z.eqb_spec d c) as [->|]; [apply contains_in in If; congruence|reflexivity].
Qed.
Definition closed (m : pmesh) : Prop := forall c f, In c (pm_cells m) -> In f (pm_of m c) -> interior m f \/ boundary m f BT_WALL_NO_SLIP.
(** In a closed domain the pressure system is never contradictory: its right-hand sides add up to nothing, and constants are in its kernel. *)
Theorem C77_pressure_compatible : forall m su dt s, sound m -> closed m -> let q := pressure_system m su dt s in
  qsum (pm_cells m) (q_b q) == 0 /\ (forall k c, In c (pm_cells m) -> row m (q_A q) (fun _ => k) c == 0) /\
  (forall x, qsum (pm_cells m) (row m (q_A q) x) == 0).
Proof.
  intros m su dt s S C. cbv zeta. unfold pressure_system. set (A := fst (momentum m dt s)). set (H := predicted _ _ _ _ _). set (ap := fun c => A c c). set (q := pressure m s ap H).
  assert (R := fun p c => pressure_row m S s ap H p c). fold q in R.
  assert (Z0 : forall p, qsum (pm_cells m) (fun c => qsum (pm_of m c) (net m s ap H p c)) == 0).
  { intros p. rewrite (pair_sum m _ S). apply qsum_zero. intros f If. apply in_all_faces in If. destruct If as (c & Ic & If). destruct (C c f Ic If) as [[nb E]|[E T]]; rewrite E.
    - destruct (so_pair m S c f nb Ic If E) as (_ & B & Fo & Fn & _). destruct (before_in _ _ _ B) as [Io Ib].
      assert (A1 := interior_net m S s ap H p _ f nb Io Fo E). assert (A2 := interior_net m S s ap H p _ f nb Ib Fn E). unfold seen in A1, A2. rewrite Z.eqb_refl in A1. assert (Ne := before_neq _ _ _ (so_cells m S) B). destruct (Z.eqb_spec (pf_owner (pm_face m f)) nb); [contradiction|]. lra.
    - unfold net. now rewrite (neighbor_alone m _ f E), T. }
  assert (K0 : forall p c, In c (pm_cells m) -> row m (q_A q) p c == q_b q c + qsum (pm_of m c) (net m s ap H p c)) by (intros p c Ic; rewrite <- (R p c Ic); ring).
  assert (B0 : forall c, In c (pm_cells m) -> q_b q c == - qsum (pm_of m c) (net m s ap H (fun _ => 0) c)).
  { intros c Ic. assert (X := K0 (fun _ => 0) c Ic). assert (Y : row m (q_A q) (fun _ => 0) c == 0) by (unfold row; apply qsum_zero; intros; ring). lra. }
  split; [|split].
  - rewrite (qsum_ext _ _ _ B0), qsum_opp, Z0. reflexivity.
  - intros k c Ic. rewrite (K0 (fun _ => k) c Ic), (B0 c Ic). rewrite (qsum_ext (pm_of m c) (net m s ap H (fun _ => k) c) (net m s ap H (fun _ => 0) c)); [ring|].
    intros f If. unfold net. destruct (C c f Ic If) as [[nb E]|[E T]].
    + destruct (neighbor_pair m c f nb S Ic If E) as (d & -> & _). ring.
    + rewrite (neighbor_alone m c f E), T. reflexivity.
  - intros x. rewrite (qsum_ext _ (row m (q_A q) x) _ (K0 x)), qsum_add, Z0. rewrite (qsum_ext _ _ _ B0), qsum_opp, Z0. reflexivity.
Qed.
Print Assumptions C77_pressure_compatible.

(** ** The momentum system *)
Lemma vadd_at_eq (b : Z -> coord) r x c : vadd_at b r x c =v= vadd (b c) (if (r =? c)%Z then x else vzero).
Proof. unfold vadd_at, upd. rewrite Z.eqb_sym. destruct (Z.eqb_spec r c) as [->|]; unfold veq, vadd, vzero; cbn; repeat split; ring. Qed.
Definition mrow (m : pmesh) (s : flow) (x : Z -> Q) (c f : Z) : Q :=
  match neighbor m c f with
  | Some (Some d) => (s_dens s c + s_dens s d) * (1 # 2) * seen m (s_flux s) c f / pm_volume m c * ((x c + x d) * (1 # 2)) +
      (s_visc s c + s_visc s d) * (1 # 2) * ((pm_area m c f + pm_area m d f) * (1 # 2)) / (pm_dist m c f + pm_dist m d f) / pm_volume m c * (x c - x d)
  | Some None => 0
  | None => s_visc s c * pm_area m c f / pm_dist m c f / pm_volume m c * x c
  end.
Lemma momentum_face_row m s x c f st c' : sound m -> In c (pm_cells m) -> In f (pm_of m c) ->
  row m (fst (momentum_face m s c f st)) x c' == row m (fst st) x c' + (if (c =? c')%Z then mrow m s x c f else 0).
Proof.
  intros S Ic If. destruct st as [A b]. unfold momentum_face, mrow. destruct (pf_pair (pm_face m f)) as [nb|] eqn:E.
  - destruct (neighbor_pair m c f nb S Ic If E) as (d & -> & Id & _). cbn [fst]. rewrite !row_add by assumption. destruct (c =? c')%Z; unfold Qdiv; ring.
  - rewrite (neighbor_alone m c f E). cbn [fst]. rewrite !row_add by assumption. destruct (c =? c')%Z; ring.
Qed.
Lemma momentum_faces_row m s x c c' : sound m -> In c (pm_cells m) -> forall l st, (forall f, In f l -> In f (pm_of m c)) ->
  row m (fst (fold_left (fun st f => momentum_face m s c f st) l st)) x c' == row m (fst st) x c' + (if (c =? c')%Z then qsum l (mrow m s x c) else 0).
Proof.
  intros S Ic. induction l as [|f l IH]; intros st H; cbn [fold_left].
  - cbn. destruct (c =? c')%Z; ring.
  - rewrite IH by (intros; apply H; now right). rewrite momentum_face_row by (try assumption; apply H; now left). rewrite qsum_cons. destruct (c =? c')%Z; ring.
Qed.
Lemma momentum_row m dt s x c : sound m -> In c (pm_cells m) -> 0 < pm_volume m c -> 0 < dt ->
  row m (fst (momentum m dt s)) x c == qsum (pm_of m c) (mrow m s x c) + s_dens s c / dt * x c.
Proof.
  intros S Ic V T. unfold momentum. assert (G : forall l st, (forall d, In d l -> In d (pm_cells m)) -> NoDup l ->
    row m (fst (fold_left (momentum_cell m dt s) l st)) x c == row m (fst st) x c + (if existsb (Z.eqb c) l then qsum (pm_of m c) (mrow m s x c) + s_dens s c / dt * x c else 0)).
  { induction l as [|d l IH]; intros st H N; cbn [fold_left]; [cbn; ring|]. inversion N; subst. rewrite IH by (auto; intros; apply H; now right). cbn [existsb].
    assert (St : row m (fst (momentum_cell m dt s st d)) x c == row m (fst st) x c + (if (c =? d)%Z then qsum (pm_of m c) (mrow m s x c) + s_dens s c / dt * x c else 0)).
    { unfold momentum_cell. rewrite (Z.eqb_sym c d). destruct (Qlt_le_dec 0 (pm_volume m d)) as [Vd|Vd].
      - assert (F := momentum_faces_row m s x d c S (H d (or_introl eq_refl)) (pm_of m d) st (fun f I => I)). destruct (fold_left _ (pm_of m d) st) as [A b]. cbn [fst] in F. destruct (Qlt_le_dec 0 dt); [|lra]. cbn [fst]. rewrite row_add by (try assumption; apply H; now left). rewrite F. destruct (Z.eqb_spec d c) as [->|]; ring.
      - destruct (Z.eqb_spec d c) as [->|]; [lra|ring]. }
    rewrite St. destruct (Z.eqb_spec c d) as [->|]; cbn; [|ring]. destruct (existsb (Z.eqb d) l) eqn:E; [|ring]. apply existsb_exists in E. destruct E as (y & Iy & Ey). apply Z.eqb_eq in Ey. subst. contradiction. }
  rewrite G by (auto; apply S). cbn [fst]. assert (E : existsb (Z.eqb c) (pm_cells m) = true) by (apply existsb_exists; exists c; split; [exact Ic|apply Z.eqb_refl]). rewrite E. unfold row. rewrite qsum_zero; [ring|]. intros; ring.
Qed.
Definition mforce (m : pmesh) (s : flow) (c f : Z) : coord :=
  match neighbor m c f with
  | Some _ => vzero
  | None => let u := s_velf s f in let n := pm_normal m c f in
      vadd (vscale (s_visc s c * pm_area m c f / pm_dist m c f / pm_volume m c) u)
           (vscale (- s_dens s c * pm_area m c f * seen m (s_flux s) c f / pm_volume m c) (Coord (cx u * cx n) (cy u * cy n) (cz u * cz n)))
  end.
Lemma vadd_assoc a b c : vadd (vadd a b) c =v= vadd a (vadd b c).
Proof. unfold veq, vadd. cbn. repeat split; ring. Qed.
Global Instance vadd_Proper : Proper (veq ==> veq ==> veq) vadd.
Proof. intros a b (A1 & A2 & A3) c d (B1 & B2 & B3). unfold veq, vadd. cbn. rewrite A1, A2, A3, B1, B2, B3. repeat split; reflexivity. Qed.
Lemma vadd_0_l a : vadd vzero a =v= a. Proof. unfold veq, vadd, vzero. cbn. repeat split; ring. Qed.
Lemma vadd_0_r a : vadd a vzero =v= a. Proof. unfold veq, vadd, vzero. cbn. repeat split; ring. Qed.
Lemma momentum_faces_force m s c c' : forall l st,
  snd (fold_left (fun st f => momentum_face m s c f st) l st) c' =v= vadd (snd st c') (if (c =? c')%Z then vsum l (mforce m s c) else vzero).
Proof.
  induction l as [|f l IH]; intros st; cbn [fold_left].
  - cbn. destruct (c =? c')%Z; now rewrite vadd_0_r.
  - rewrite IH. assert (St : snd (momentum_face m s c f st) c' =v= vadd (snd st c') (if (c =? c')%Z then mforce m s c f else vzero)).
    { destruct st as [A b]. unfold momentum_face, mforce. destruct (neighbor m c f) as [[d|]|]; cbn [snd].
      - destruct (c =? c')%Z; now rewrite vadd_0_r.
      - destruct (c =? c')%Z; now rewrite vadd_0_r.
      - rewrite !vadd_at_eq. destruct (c =? c')%Z; rewrite vadd_assoc; [reflexivity|]. now rewrite vadd_0_l. }
    rewrite St, vadd_assoc. destruct (c =? c')%Z; cbn [vsum fold_right]; [reflexivity|]. now rewrite vadd_0_l.
Qed.
Lemma momentum_force m dt s c : sound m -> In c (pm_cells m) -> 0 < pm_volume m c -> 0 < dt ->
  snd (momentum m dt s) c =v= vadd (vsum (pm_of m c) (mforce m s c)) (vadd (vscale (s_dens s c) (s_g s)) (vadd (gradient m (s_p s) (s_pf s) c) (vscale (s_dens s c / dt) (s_vel s c)))).
Proof.
  intros S Ic V T. unfold momentum. set (X := vadd (vsum (pm_of m c) (mforce m s c)) _).
  assert (G : forall l st, NoDup l -> snd (fold_left (momentum_cell m dt s) l st) c =v= vadd (snd st c) (if existsb (Z.eqb c) l then X else vzero)).
  { induction l as [|d l IH]; intros st N; cbn [fold_left]; [cbn; now rewrite vadd_0_r|]. inversion N; subst. rewrite IH by assumption. cbn [existsb].
    assert (St : snd (momentum_cell m dt s st d) c =v= vadd (snd st c) (if (c =? d)%Z then X else vzero)).
    { unfold momentum_cell. rewrite (Z.eqb_sym c d). destruct (Qlt_le_dec 0 (pm_volume m d)) as [Vd|Vd].
      - assert (F := momentum_faces_force m s d c (pm_of m d) st). destruct (fold_left _ (pm_of m d) st) as [A b]. cbn [snd] in F. destruct (Qlt_le_dec 0 dt); [|lra]. cbn [snd]. rewrite !vadd_at_eq, F. destruct (Z.eqb_spec d c) as [->|]; [|now rewrite !vadd_0_r]. unfold X. now rewrite !vadd_assoc.
      - destruct (Z.eqb_spec d c) as [->|]; [lra|now rewrite vadd_0_r]. }
    rewrite St. destruct (Z.eqb_spec c d) as [->|]; cbn; [|now rewrite vadd_0_r]. destruct (existsb (Z.eqb d) l) eqn:E; [|now rewrite vadd_0_r]. apply existsb_exists in E. destruct E as (y & Iy & Ey). apply Z.eqb_eq in Ey. subst. contradiction. }
  rewrite G by apply S. assert (E : existsb (Z.eqb c) (pm_cells m) = true) by (apply existsb_exists; exists c; split; [exact Ic|apply Z.eqb_refl]). rewrite E. cbn [snd]. apply vadd_0_l.
Qed.

(** ** Rest *)
(** Cells and faces have positive size; the area vectors of a cell add up to nothing. *)
Definition proper_geometry (m : pmesh) : Prop := forall c, In c (pm_cells m) -> 0 < pm_volume m c /\
  vsum (pm_of m c) (fun f => vscale (pm_area m c f) (pm_normal m c f)) =v= vzero /\
  forall f, In f (pm_of m c) -> 0 < pm_area m c f /\ 0 < pm_dist m c f.
Definition proper_fluid (m : pmesh) (s : flow) : Prop := forall c, In c (pm_cells m) -> 0 < s_dens s c /\ 0 <= s_visc s c.
(** Nothing moves, no gravity, and the pressure is the same on both sides of every face. *)
Definition at_rest (m : pmesh) (s : flow) : Prop :=
  s_g s =v= vzero /\
  forall c, In c (pm_cells m) -> s_vel s c =v= vzero /\ forall f, In f (pm_of m c) ->
    s_flux s f == 0 /\ (interior m f -> forall d, In d (pm_cells m) -> In f (pm_of m d) -> s_p s d == s_p s c) /\
    (~ interior m f -> s_pf s f == s_p s c /\ s_velf s f =v= vzero).
(** A solver that finds a solution whenever there is one. *)
Definition exact_solver (m : pmesh) (solve : solver) : Prop := forall A b, (exists x, solves m A b x) -> solves m A b (solve A b).
Lemma vsum_ext {A} (l : list A) g h : (forall x, In x l -> g x =v= h x) -> vsum l g =v= vsum l h.
Proof. induction l as [|x l IH]; intros H; cbn [vsum fold_right]; [reflexivity|]. fold (vsum l g) (vsum l h). rewrite (H x) by now left. rewrite IH by (intros; apply H; now right). reflexivity. Qed.
Lemma vsum_scale {A} (l : list A) k g : vsum l (fun x => vscale k (g x)) =v= vscale k (vsum l g).
Proof. induction l as [|x l IH]; cbn [vsum fold_right]; [unfold veq, vscale, vzero; cbn; repeat split; ring|]. fold (vsum l g). fold (vsum l (fun x => vscale k (g x))). rewrite IH. unfold veq, vscale, vadd. cbn. repeat split; ring. Qed.
Lemma vscale_zero k v : v =v= vzero -> vscale k v =v= vzero.
Proof. intros (A & B & C). unfold veq, vscale, vzero in *. cbn in *. rewrite A, B, C. repeat split; ring. Qed.
Lemma vsum_zero {A} (l : list A) g : (forall x, In x l -> g x =v= vzero) -> vsum l g =v= vzero.
Proof. intros H. rewrite (vsum_ext l g (fun _ => vzero) H). clear H. induction l; [reflexivity|]. cbn [vsum fold_right]. fold (vsum l (fun _ : A => vzero)). rewrite IHl. apply vadd_0_l. Qed.
(** Equal pressure on all sides gives no gradient. *)
Lemma level_gradient m p pf c : proper_geometry m -> In c (pm_cells m) ->
  (forall f, In f (pm_of m c) -> match pf_pair (pm_face m f) with Some nb => p (across m c f nb) == p c | None => pf f == p c end) -> gradient m p pf c =v= vzero.
Proof.
  intros G Ic H. destruct (G c Ic) as (V & Cl & _). unfold gradient. set (sum := vsum _ _). assert (E : sum =v= vzero).
  { unfold sum. rewrite (vsum_ext _ _ (fun f => vscale (p c) (vscale (pm_area m c f) (pm_normal m c f)))).
    - rewrite vsum_scale. now apply vscale_zero.
    - intros f If. assert (Hf := H f If). destruct (pf_pair (pm_face m f)); unfold veq, vscale; cbn; rewrite Hf; repeat split; ring. }
  destruct (Qlt_le_dec 0 (pm_volume m c)); [now apply vscale_zero|exact E].
Qed.
Lemma rest_level m s c : sound m -> at_rest m s -> In c (pm_cells m) -> forall f, In f (pm_of m c) ->
  match pf_pair (pm_face m f) with Some nb => s_p s (across m c f nb) == s_p s c | None => s_pf s f == s_p s c end.
Proof.
  intros S [_ R] Ic f If. destruct (R c Ic) as [_ Rf]. destruct (Rf f If) as (_ & Ri & Rb). destruct (pf_pair (pm_face m f)) as [nb|] eqn:E.
  - destruct (neighbor_pair m c f nb S Ic If E) as (d & En & Id & Ifd & _). unfold neighbor in En. rewrite E in En. cbv zeta in En. destruct (contains m (across m c f nb) f); [|discriminate]. injection En as ->. apply Ri; [now exists nb|exact Id|exact Ifd].
  - apply Rb. intros [nb E']. congruence.
Qed.
Lemma Qsquare_nonneg x : 0 <= x * x.
Proof. destruct (Qlt_le_dec x 0); [setoid_replace (x * x) with ((- x) * (- x)) by ring|]; apply Qmult_le_0_compat; lra. Qed.
Lemma Qsquare_zero x : x * x == 0 -> x == 0.
Proof. intros H. destruct (Qmult_integral _ _ H); assumption. Qed.
Section Rest.
Context (m : pmesh) (S : sound m) (Cl : closed m) (G : proper_geometry m) (s : flow) (Fl : proper_fluid m s) (dt : Q) (T : 0 < dt).
Let A := fst (momentum m dt s).
Let b := snd (momentum m dt s).
Let ap := fun c => A c c.
Definition drag (c d f : Z) : Q := (s_visc s c + s_visc s d) * (1 # 2) * ((pm_area m c f + pm_area m d f) * (1 # 2)) / (pm_dist m c f + pm_dist m d f).
Lemma drag_nonneg c d f : In c (pm_cells m) -> In d (pm_cells m) -> In f (pm_of m c) -> In f (pm_of m d) -> 0 <= drag c d f.
Proof.
  intros Ic Id Fc Fd. destruct (Fl c Ic) as [_ Vc], (Fl d Id) as [_ Vd]. destruct (G c Ic) as (_ & _ & Gc), (G d Id) as (_ & _ & Gd). destruct (Gc f Fc) as [Ac Dc], (Gd f Fd) as [Ad Dd].
  unfold drag, Qdiv. apply Qmult_le_0_compat; [|apply Qinv_le_0_compat; lra]. apply Qmult_le_0_compat; lra.
Qed.
Lemma drag_sym c d f : drag c d f == drag d c f.
Proof. unfold drag. rewrite (Qplus_comm (s_visc s c)), (Qplus_comm (pm_area m c f)), (Qplus_comm (pm_dist m c f)). reflexivity. Qed.
Definition still : Prop := forall c f, In c (pm_cells m) -> In f (pm_of m c) -> s_flux s f == 0.
Lemma still_mrow x c f : still -> In c (pm_cells m) -> In f (pm_of m c) -> pm_volume m c * mrow m s x c f ==
  match neighbor m c f with Some (Some d) => drag c d f * (x c - x d) | Some None => 0 | None => s_visc s c * pm_area m c f / pm_dist m c f * x c end.
Proof.
  intros St Ic If. destruct (G c Ic) as (V & _ & Gc). destruct (Gc f If) as [Af Df]. unfold mrow. destruct (neighbor m c f) as [[d|]|].
  - assert (Z0 : seen m (s_flux s) c f == 0) by (unfold seen; destruct (_ =? _)%Z; rewrite (St c f Ic If); ring). rewrite Z0. fold (drag c d f). field. lra.
  - ring.
  - unfold Qdiv. field. split; lra.
Qed.
Lemma momentum_unique x : still -> (forall c, In c (pm_cells m) -> row m A x c == 0) -> forall c, In c (pm_cells m) -> x c == 0.
Proof.
  intros St H. assert (E : qsum (pm_cells m) (fun c => qsum (pm_of m c) (fun f => pm_volume m c * mrow m s x c f * x c)) + qsum (pm_cells m) (fun c => pm_volume m c * (s_dens s c / dt) * (x c * x c)) == 0).
  { rewrite <- qsum_add. apply qsum_zero. intros c Ic. assert (R := H c Ic). unfold A in R. rewrite momentum_row in R by (try assumption; now apply G).
    transitivity (pm_volume m c * x c * (qsum (pm_of m c) (mrow m s x c) + s_dens s c / dt * x c)); [|rewrite R; ring].
    rewrite Qmult_plus_distr_r, <- qsum_scale. apply Qplus_comp; [apply qsum_ext; intros; ring|ring]. }
  assert (P1 : 0 <= qsum (pm_cells m) (fun c => qsum (pm_of m c) (fun f => pm_volume m c * mrow m s x c f * x c))).
  { rewrite (pair_sum m (fun c f => pm_volume m c * mrow m s x c f * x c) S). apply qsum_nonneg. intros f If. apply in_all_faces in If. destruct If as (c & Ic & If). destruct (pf_pair (pm_face m f)) as [nb|] eqn:E1.
    - destruct (so_pair m S c f nb Ic If E1) as (_ & B & Fo & Fn & _). destruct (before_in _ _ _ B) as [Io Ib]. assert (Ne := before_neq _ _ _ (so_cells m S) B). set (o := pf_owner (pm_face m f)) in *.
      rewrite (still_mrow x o f St Io Fo), (still_mrow x nb f St Ib Fn). destruct (neighbor_pair m o f nb S Io Fo E1) as (d & -> & _ & _ & _ & [[_ ->]|[A1 _]]); [|contradiction]. destruct (neighbor_pair m nb f nb S Ib Fn E1) as (d & -> & _ & _ & _ & [[A1 _]|[_ ->]]); [unfold o in Ne; congruence|]. fold o.
      setoid_replace (drag o nb f * (x o - x nb) * x o + drag nb o f * (x nb - x o) * x nb) with (drag o nb f * ((x o - x nb) * (x o - x nb))) by (rewrite (drag_sym nb o); ring). apply Qmult_le_0_compat; [now apply drag_nonneg|apply Qsquare_nonneg].
    - rewrite (so_alone m S c f Ic If E1). rewrite (still_mrow x c f St Ic If), (neighbor_alone m c f E1). destruct (Fl c Ic) as [_ Vc]. destruct (G c Ic) as (_ & _ & Gc). destruct (Gc f If) as [Ac Dc].
      setoid_replace (s_visc s c * pm_area m c f / pm_dist m c f * x c * x c) with (s_visc s c * pm_area m c f / pm_dist m c f * (x c * x c)) by ring. apply Qmult_le_0_compat; [|apply Qsquare_nonneg]. unfold Qdiv. apply Qmult_le_0_compat; [apply Qmult_le_0_compat; lra|apply Qinv_le_0_compat; lra]. }
  assert (K : forall c, In c (pm_cells m) -> 0 < pm_volume m c * (s_dens s c / dt)).
  { intros c Ic. destruct (G c Ic) as (V & _). destruct (Fl c Ic) as [D _]. apply Qmult_lt_0_compat; [exact V|]. unfold Qdiv. apply Qmult_lt_0_compat; [exact D|]. now apply Qinv_lt_0_compat. }
  assert (P2 : forall c, In c (pm_cells m) -> 0 <= pm_volume m c * (s_dens s c / dt) * (x c * x c)).
  { intros c Ic. apply Qmult_le_0_compat; [apply Qlt_le_weak, (K c Ic)|apply Qsquare_nonneg]. }
  assert (P3 := qsum_nonneg _ _ P2). assert (P4 := qsum_zero_each _ _ P2 ltac:(lra)). intros c Ic. apply Qsquare_zero. destruct (Qmult_integral _ _ (P4 c Ic)) as [Z0|Z0]; [|exact Z0]. assert (X := K c Ic). lra.
Qed.
Lemma ap_positive c : still -> In c (pm_cells m) -> 0 < ap c.
Proof.
  intros St Ic. assert (R := momentum_row m dt s (fun d => if (d =? c)%Z then 1 else 0) c S Ic (proj1 (G c Ic)) T). cbv beta in R. rewrite Z.eqb_refl in R. unfold row in R. fold A in R.
  rewrite (qsum_ext _ _ (fun d => if (d =? c)%Z then A c d else 0)) in R by (intros d _; destruct (d =? c)%Z; ring). rewrite (qsum_pick (pm_cells m) c (A c) (so_cells m S) Ic) in R. unfold ap. rewrite R.
  destruct (Fl c Ic) as [D Vc]. assert (X : 0 < s_dens s c / dt) by (unfold Qdiv; apply Qmult_lt_0_compat; [exact D|now apply Qinv_lt_0_compat]).
  assert (Y : 0 <= qsum (pm_of m c) (mrow m s (fun d => if (d =? c)%Z then 1 else 0) c)).
  { apply qsum_nonneg. intros f If. assert (E := still_mrow (fun d => if (d =? c)%Z then 1 else 0) c f St Ic If). cbv beta in E. rewrite Z.eqb_refl in E. destruct (G c Ic) as (V & _ & Gc). destruct (Gc f If) as [Af Df].
    assert (N : 0 <= pm_volume m c * mrow m s (fun d => if (d =? c)%Z then 1 else 0) c f).
    { rewrite E. destruct (pf_pair (pm_face m f)) as [nb|] eqn:E1.
      - destruct (neighbor_pair m c f nb S Ic If E1) as (d & -> & Id & Fd & Ncd & _). destruct (Z.eqb_spec d c); [congruence|]. setoid_replace (drag c d f * (1 - 0)) with (drag c d f) by ring. now apply drag_nonneg.
      - rewrite (neighbor_alone m c f E1). unfold Qdiv. apply Qmult_le_0_compat; [apply Qmult_le_0_compat; [apply Qmult_le_0_compat; lra|apply Qinv_le_0_compat; lra]|lra]. }
    setoid_replace (mrow m s (fun d => if (d =? c)%Z then 1 else 0) c f) with (/ pm_volume m c * (pm_volume m c * mrow m s (fun d => if (d =? c)%Z then 1 else 0) c f)) by (field; lra). apply Qmult_le_0_compat; [apply Qinv_le_0_compat; lra|exact N]. }
  lra.
Qed.
End Rest.
Lemma row_zero m A c : row m A (fun _ => 0) c == 0.
Proof. unfold row. apply qsum_zero. intros; ring. Qed.
Lemma conduct_positive m ap c d f : proper_geometry m -> In c (pm_cells m) -> In d (pm_cells m) -> In f (pm_of m c) -> In f (pm_of m d) -> 0 < ap c -> 0 < ap d -> 0 < conduct m ap c f (Some d).
Proof.
  intros G Ic Id Fc Fd Pc Pd. destruct (G c Ic) as (_ & _ & Gc), (G d Id) as (_ & _ & Gd). destruct (Gc f Fc) as [Ac Dc], (Gd f Fd) as [Ad Dd]. unfold conduct, Qdiv. apply Qmult_lt_0_compat; [|lra]. rewrite Qmult_1_l. apply Qinv_lt_0_compat. apply Qmult_lt_0_compat; lra.
Qed.
(** With no source anywhere the pressures of a closed domain are level. *)
Lemma pressure_level m s ap H p : sound m -> closed m -> proper_geometry m -> (forall c, In c (pm_cells m) -> 0 < ap c) -> (forall c, In c (pm_cells m) -> H c =v= vzero) ->
  (forall c, In c (pm_cells m) -> qsum (pm_of m c) (net m s ap H p c) == 0) -> forall c d f, In c (pm_cells m) -> In d (pm_cells m) -> In f (pm_of m c) -> In f (pm_of m d) -> interior m f -> p c == p d.
Proof.
  intros S Cl G Ap H0 E.
  assert (F0 : forall c d f, In c (pm_cells m) -> In d (pm_cells m) -> open_flux m ap H c f (Some d) == 0).
  { intros c d f Ic Id. unfold open_flux. destruct (H0 c Ic) as (A1 & A2 & A3), (H0 d Id) as (B1 & B2 & B3). unfold dot, vscale, vadd, vzero in *. cbn in *. rewrite A1, A2, A3, B1, B2, B3. unfold Qdiv. ring. }
  assert (Sum : qsum (pm_cells m) (fun c => qsum (pm_of m c) (fun f => - p c * net m s ap H p c f)) == 0).
  { apply qsum_zero. intros c Ic. rewrite qsum_scale, (E c Ic). ring. }
  rewrite (pair_sum m (fun c f => - p c * net m s ap H p c f) S) in Sum.
  assert (Term : forall f, In f (all_faces m) -> match pf_pair (pm_face m f) with Some nb => - p (pf_owner (pm_face m f)) * net m s ap H p (pf_owner (pm_face m f)) f + - p nb * net m s ap H p nb f | None => - p (pf_owner (pm_face m f)) * net m s ap H p (pf_owner (pm_face m f)) f end ==
    match pf_pair (pm_face m f) with Some nb => conduct m ap (pf_owner (pm_face m f)) f (Some nb) * ((p nb - p (pf_owner (pm_face m f))) * (p nb - p (pf_owner (pm_face m f)))) | None => 0 end /\
    match pf_pair (pm_face m f) with Some nb => 0 < conduct m ap (pf_owner (pm_face m f)) f (Some nb) | None => True end).
  { intros f If. apply in_all_faces in If. destruct If as (c & Ic & If). destruct (pf_pair (pm_face m f)) as [nb|] eqn:E1.
    - destruct (so_pair m S c f nb Ic If E1) as (_ & B & Fo & Fn & _). destruct (before_in _ _ _ B) as [Io Ib]. assert (Ne := before_neq _ _ _ (so_cells m S) B). set (o := pf_owner (pm_face m f)) in *.
      split; [|apply conduct_positive; auto]. unfold net. destruct (neighbor_pair m o f nb S Io Fo E1) as (d & -> & _ & _ & _ & [[_ ->]|[A1 _]]); [|contradiction]. destruct (neighbor_pair m nb f nb S Ib Fn E1) as (d & -> & _ & _ & _ & [[A1 _]|[_ ->]]); [unfold o in Ne; congruence|]. fold o.
      rewrite !F0 by assumption. rewrite (conduct_sym m ap nb o). ring.
    - split; [|exact I]. rewrite (so_alone m S c f Ic If E1). unfold net. rewrite (neighbor_alone m c f E1). destruct (Cl c f Ic If) as [[nb E2]|[_ ->]]; [congruence|ring]. }
  assert (Z0 := fun P => qsum_zero_each (all_faces m) _ P Sum). cbv beta in Z0.
  assert (Each : forall f, In f (all_faces m) -> match pf_pair (pm_face m f) with Some nb => p nb == p (pf_owner (pm_face m f)) | None => True end).
  { intros f If. destruct (Term f If) as [Et Pk]. assert (X : forall g, In g (all_faces m) -> 0 <= match pf_pair (pm_face m g) with Some nb => - p (pf_owner (pm_face m g)) * net m s ap H p (pf_owner (pm_face m g)) g + - p nb * net m s ap H p nb g | None => - p (pf_owner (pm_face m g)) * net m s ap H p (pf_owner (pm_face m g)) g end).
    { intros g Ig. destruct (Term g Ig) as [Eg Pg]. rewrite Eg. destruct (pf_pair (pm_face m g)); [|lra]. apply Qmult_le_0_compat; [lra|apply Qsquare_nonneg]. }
    assert (Y := Z0 X f If). rewrite Et in Y. destruct (pf_pair (pm_face m f)) as [nb|]; [|exact I]. destruct (Qmult_integral _ _ Y) as [Y1|Y1]; [lra|]. apply Qsquare_zero in Y1. lra. }
  intros c d f Ic Id Fc Fd [nb En]. assert (If : In f (all_faces m)) by (apply in_all_faces; eauto). assert (Ef := Each f If). rewrite En in Ef.
  destruct (so_pair m S c f nb Ic Fc En) as ([-> | ->] & _); destruct (so_pair m S d f nb Id Fd En) as ([-> | ->] & _); lra.
Qed.
Lemma pressure_velf m s ap H f : closed m -> q_velf (pressure m s ap H) f = s_velf s f.
Proof.
  intros Cl. unfold pressure. rewrite each_face_visits. rewrite (fold_keeps _ (fun q => q_velf q f)); [reflexivity|]. intros (c, g) t I. apply in_visits in I. destruct I as [Ic Ig]. cbn [fst snd]. unfold pressure_face.
  destruct (Cl c g Ic Ig) as [[nb E]|[E Ty]].
  - unfold neighbor. rewrite E. cbv zeta. destruct (contains m _ g); reflexivity.
  - rewrite (neighbor_alone m c g E), Ty. reflexivity.
Qed.
Lemma at_rest_step : forall m su sp dt s, sound m -> closed m -> proper_geometry m -> proper_fluid m s -> 0 < dt -> exact_solver m su -> exact_solver m sp -> at_rest m s ->
  at_rest m (iterate m su sp dt s).
Proof.
  intros m su sp dt s S Cl G Fl T Xu Xp R. assert (R' := R). destruct R' as [Rg Rc].
  assert (St : still m s) by (intros c f Ic If; destruct (Rc c Ic) as [_ X]; now destruct (X f If)).
  assert (Gr : forall c, In c (pm_cells m) -> gradient m (s_p s) (s_pf s) c =v= vzero) by (intros c Ic; apply level_gradient; [exact G|exact Ic|now apply rest_level]).
  set (A := fst (momentum m dt s)). set (b := snd (momentum m dt s)).
  assert (B0 : forall c, In c (pm_cells m) -> b c =v= vzero).
  { intros c Ic. unfold b. rewrite momentum_force by (try assumption; now apply G). destruct (Rc c Ic) as [Rv Rf]. rewrite (Gr c Ic). rewrite (vscale_zero _ _ Rg), (vscale_zero _ _ Rv), !vadd_0_r. apply vsum_zero. intros f If. unfold mforce. destruct (Rf f If) as (Rfl & _ & Rb). destruct (neighbor m c f) eqn:En; [reflexivity|].
    assert (Ni : ~ interior m f) by (intros [nb E]; unfold neighbor in En; rewrite E in En; discriminate). destruct (Rb Ni) as [_ Rvf]. cbv zeta. rewrite (vscale_zero _ _ Rvf), vadd_0_l. apply vscale_zero. destruct Rvf as (V1 & V2 & V3). unfold veq, vzero in *. cbn in *. rewrite V1, V2, V3. repeat split; ring. }
  set (u := solve3 su A b).
  assert (U0 : forall c, In c (pm_cells m) -> u c =v= vzero).
  { assert (X : forall k : coord -> Q, (forall v, v =v= vzero -> k v == 0) -> forall c, In c (pm_cells m) -> su A (fun r => k (b r)) c == 0).
    { intros k Hk. apply (momentum_unique m S G s Fl dt T _ St). fold A. intros c Ic. assert (Sv : solves m A (fun r => k (b r)) (su A (fun r => k (b r)))) by (apply Xu; exists (fun _ => 0); intros d Id; rewrite row_zero, (Hk _ (B0 d Id)); reflexivity). rewrite (Sv c Ic). apply Hk, B0, Ic. }
    intros c Ic. unfold u, solve3, veq. cbn. repeat split; apply X; auto; intros v (V1 & V2 & V3); assumption. }
  set (ap := fun c => A c c). set (H := predicted m s A b u).
  assert (H0 : forall c, In c (pm_cells m) -> H c =v= vzero).
  { intros c Ic. unfold H, predicted. destruct (B0 c Ic) as (X1 & X2 & X3), (Gr c Ic) as (Y1 & Y2 & Y3), (U0 c Ic) as (Z1 & Z2 & Z3). unfold veq, vsub, vscale, vzero in *. cbn in *. rewrite X1, X2, X3, Y1, Y2, Y3, Z1, Z2, Z3. repeat split; ring. }
  assert (Ap : forall c, In c (pm_cells m) -> 0 < ap c) by (intros c Ic; exact (ap_positive m S G s Fl dt T c St Ic)).
  set (q := pressure m s ap H). set (p := sp (q_A q) (q_b q)).
  assert (F0 : forall c d f, In c (pm_cells m) -> In d (pm_cells m) -> open_flux m ap H c f (Some d) == 0).
  { intros c d f Ic Id. unfold open_flux. destruct (H0 c Ic) as (A1 & A2 & A3), (H0 d Id) as (C1 & C2 & C3). unfold dot, vscale, vadd, vzero in *. cbn in *. rewrite A1, A2, A3, C1, C2, C3. unfold Qdiv. ring. }
  assert (N0 : forall c, In c (pm_cells m) -> qsum (pm_of m c) (net m s ap H (fun _ => 0) c) == 0).
  { intros c Ic. apply qsum_zero. intros f If. unfold net. destruct (Cl c f Ic If) as [[nb E]|[E Ty]].
    - destruct (neighbor_pair m c f nb S Ic If E) as (d & -> & Id & _). rewrite F0 by assumption. ring.
    - now rewrite (neighbor_alone m c f E), Ty. }
  assert (Qb : forall c, In c (pm_cells m) -> q_b q c == 0).
  { intros c Ic. assert (X := pressure_row m S s ap H (fun _ => 0) c Ic). fold q in X. rewrite row_zero, (N0 c Ic) in X. lra. }
  assert (Sp : solves m (q_A q) (q_b q) p) by (apply Xp; exists (fun _ => 0); intros c Ic; rewrite row_zero, (Qb c Ic); reflexivity).
  assert (Np : forall c, In c (pm_cells m) -> qsum (pm_of m c) (net m s ap H p c) == 0) by (intros c Ic; rewrite <- (pressure_row m S s ap H p c Ic); fold q; rewrite (Sp c Ic); ring).
  assert (Lv := pressure_level m s ap H p S Cl G Ap H0 Np).
  unfold iterate. assert (EM : momentum m dt s = (A, b)) by apply surjective_pairing. rewrite EM. fold u. fold H. fold ap. fold q. fold p.
  assert (Ef : forall c f, In c (pm_cells m) -> In f (pm_of m c) -> fst (correct_flux m ap p (q_flux q) (s_pf s)) f == 0 /\ (~ interior m f -> snd (correct_flux m ap p (q_flux q) (s_pf s)) f == p c)).
  { intros c f Ic If. destruct (Cl c f Ic If) as [[nb E]|[E Ty]].
    - destruct (so_pair m S c f nb Ic If E) as (_ & B & Fo & Fn & _). destruct (before_in _ _ _ B) as [Io Ib]. split; [|intros N; exfalso; apply N; now exists nb].
      destruct (correct_pair m ap p (q_flux q) (s_pf s) c f nb S Ic If E) as [-> _]. unfold q. rewrite (pressure_flux_pair m s ap H c f nb S Ic If E). rewrite F0 by assumption. rewrite (Lv nb _ f Ib Io Fn Fo) by now exists nb. ring.
    - destruct (correct_alone m ap p (q_flux q) (s_pf s) c f S Ic If E) as [-> ->]. rewrite Ty. split; reflexivity. }
  destruct (correct_flux m ap p (q_flux q) (s_pf s)) as [flux pf] eqn:EC. cbn [fst snd] in Ef.
  split; [exact Rg|]. cbn [s_vel s_flux s_p s_pf s_velf]. intros c Ic. split.
  - unfold correct_velocity. apply vscale_zero. assert (Gp : gradient m p pf c =v= vzero).
    { apply level_gradient; [exact G|exact Ic|]. intros f If. destruct (pf_pair (pm_face m f)) as [nb|] eqn:E.
      - destruct (neighbor_pair m c f nb S Ic If E) as (d & En & Id & Ifd & _). unfold neighbor in En. rewrite E in En. cbv zeta in En. destruct (contains m (across m c f nb) f); [|discriminate]. injection En as ->. apply (Lv d c f); auto. now exists nb.
      - apply (Ef c f Ic If). intros [nb E']. congruence. }
    destruct Gp as (Y1 & Y2 & Y3), (H0 c Ic) as (X1 & X2 & X3). unfold veq, vsub, vzero in *. cbn in *. rewrite X1, X2, X3, Y1, Y2, Y3. repeat split; ring.
  - intros f If. destruct (Ef c f Ic If) as [E1 E2]. split; [exact E1|]. split.
    + intros Hi d Id Ifd. rewrite (Lv d c f) by assumption. reflexivity.
    + intros Ni. rewrite (E2 Ni). split; [reflexivity|]. unfold q. rewrite pressure_velf by exact Cl. destruct (Rc c Ic) as [_ Rf]. now apply (Rf f If).
Qed.
(** A fluid at rest without gravity stays at rest, for any number of steps. *)
Theorem C77_rest : forall m su sp dt s n, sound m -> closed m -> proper_geometry m -> proper_fluid m s -> 0 < dt -> exact_solver m su -> exact_solver m sp -> at_rest m s ->
  let s' := Nat.iter n (iterate m su sp dt) s in at_rest m s' /\ forall c, In c (pm_cells m) -> mass_error m (s_flux s') c == 0.
Proof.
  intros m su sp dt s n S Cl G Fl T Xu Xp R. assert (X : at_rest m (Nat.iter n (iterate m su sp dt) s) /\ proper_fluid m (Nat.iter n (iterate m su sp dt) s)).
  { induction n as [|n [IH IF]]; [split; assumption|]. cbn [Nat.iter nat_rect]. fold (Nat.iter n (iterate m su sp dt) s). split; [now apply at_rest_step|]. set (t := Nat.iter n _ s) in *. unfold iterate. destruct (momentum m dt t). destruct (correct_flux _ _ _ _ _). exact IF. }
  destruct X as [X _]. split; [exact X|]. intros c Ic. unfold mass_error. apply qsum_zero. intros f If. destruct X as [_ X]. destruct (X c Ic) as [_ Xf]. destruct (Xf f If) as [E _]. unfold seen. destruct (_ =? _)%Z; rewrite E; ring.
Qed.
Print Assumptions C77_rest.

(** ** Cases and failures: two unit cubes side by side *)
Definition side (c f : Z) : coord :=
  match f with
  | 0 => if (c =? 0)%Z then Coord 1 0 0 else Coord (-1) 0 0
  | 1 => Coord (-1) 0 0 | 6 => Coord 1 0 0 | 2 | 7 => Coord 0 1 0 | 3 | 8 => Coord 0 (-1) 0 | 4 | 9 => Coord 0 0 1 | _ => Coord 0 0 (-1)
  end%Z.
Definition pair_mesh (kind : Z -> btype) : pmesh :=
  PMesh [0; 1]%Z [0; 1; 2; 3; 4; 5; 6; 7; 8; 9; 10]%Z (fun c => if (c =? 0)%Z then [0; 1; 2; 3; 4; 5]%Z else [0; 6; 7; 8; 9; 10]%Z)
    (fun f => PFace (if (f <=? 5)%Z then 0 else 1)%Z (if (f =? 0)%Z then Some 1%Z else None) (kind f))
    (fun _ _ => 1) (fun _ _ => 1 # 2) side (fun _ => 1).
Definition walls : Z -> btype := fun _ => BT_WALL_NO_SLIP.
Lemma pair_mesh_sound kind : sound (pair_mesh kind).
Proof.
  split.
  - repeat constructor; cbn; intuition discriminate.
  - intros c I. cbn in I. destruct I as [<-|[<-|[]]]; repeat constructor; cbn; intuition discriminate.
  - intros c f I J. cbn in I. destruct I as [<-|[<-|[]]]; cbn in J; repeat (destruct J as [<-|J]; [cbn; intros; (discriminate || reflexivity)|]); destruct J.
  - intros c f nb I J E. cbn in I. assert (f = 0%Z /\ nb = 1%Z) as [-> ->]. { cbn in E. destruct (Z.eqb_spec f 0); [split; [assumption|]; now injection E|discriminate]. }
    cbn. split; [destruct I as [<-|[<-|[]]]; auto|]. split; [exists [], [], []; reflexivity|]. split; [auto|]. split; [auto|]. split; [reflexivity|]. repeat split; reflexivity.
Qed.
Lemma pair_mesh_closed : closed (pair_mesh walls).
Proof. intros c f I J. destruct (Z.eq_dec f 0) as [->|N]; [left; exists 1%Z; reflexivity|]. right. split; [|reflexivity]. cbn. destruct (Z.eqb_spec f 0); [contradiction|reflexivity]. Qed.
Lemma pair_mesh_geometry kind : proper_geometry (pair_mesh kind).
Proof.
  intros c I. split; [reflexivity|]. split; [cbn in I; destruct I as [<-|[<-|[]]]; repeat split; reflexivity|]. intros f J. split; reflexivity.
Qed.
(** Exact solution of two equations. *)
Definition solve2 : solver := fun A b =>
  let a := A 0%Z 0%Z in let b' := A 0%Z 1%Z in let c := A 1%Z 0%Z in let d := A 1%Z 1%Z in let e := b 0%Z in let f := b 1%Z in
  let det := a * d - b' * c in
  let xy := if Qeq_dec det 0 then if Qeq_dec a 0 then if Qeq_dec b' 0 then if Qeq_dec c 0 then if Qeq_dec d 0 then (0, 0) else (0, f / d) else (f / c, 0) else (0, e / b') else (e / a, 0)
            else ((e * d - b' * f) / det, (a * f - c * e) / det) in
  fun k => if (k =? 0)%Z then fst xy else snd xy.
Lemma solve2_exact kind : exact_solver (pair_mesh kind) solve2.
Proof.
  intros A B (x & X). assert (X0 := X 0%Z (or_introl eq_refl)). assert (X1 := X 1%Z (or_intror (or_introl eq_refl))). unfold row in *. cbn [pair_mesh pm_cells qsum fold_right] in X0, X1.
  set (a := A 0%Z 0%Z) in *. set (b := A 0%Z 1%Z) in *. set (c := A 1%Z 0%Z) in *. set (d := A 1%Z 1%Z) in *. set (x0 := x 0%Z) in *. set (x1 := x 1%Z) in *. set (e := B 0%Z) in *. set (f := B 1%Z) in *.
  assert (Y0 : e == a * x0 + b * x1) by (rewrite <- X0; ring). assert (Y1 : f == c * x0 + d * x1) by (rewrite <- X1; ring).
  assert (G : forall y z, a * y + b * z == e -> c * y + d * z == f -> (solve2 A B 0%Z == y /\ solve2 A B 1%Z == z) -> solves (pair_mesh kind) A B (solve2 A B)).
  { intros y z Gy Gz [Ey Ez] k I. unfold row. cbn in I. destruct I as [<-|[<-|[]]]; cbn [pair_mesh pm_cells qsum fold_right]; fold a b c d e f; rewrite Ey, Ez; lra. }
  unfold solve2 in G |- *. fold a b c d e f in G |- *. cbn [Z.eqb] in G. destruct (Qeq_dec (a * d - b * c) 0) as [D|D].
  - assert (D' : a * d == b * c) by lra. destruct (Qeq_dec a 0) as [Ha|Ha]; [destruct (Qeq_dec b 0) as [Hb|Hb]; [destruct (Qeq_dec c 0) as [Hc|Hc]; [destruct (Qeq_dec d 0) as [Hd|Hd]|]|]|]; cbn [fst snd] in G.
    + apply (G 0 0); [| |split; reflexivity]; rewrite ?Y0, ?Y1, ?Ha, ?Hb, ?Hc, ?Hd; ring.
    + apply (G 0 (f / d)); [rewrite Y0, Ha, Hb; ring|field; exact Hd|split; reflexivity].
    + apply (G (f / c) 0); [rewrite Y0, Ha, Hb; ring|field; exact Hc|split; reflexivity].
    + apply (G 0 (e / b)); [field; exact Hb| |split; reflexivity]. assert (Hc : c == 0). { rewrite Ha in D'. assert (Z0 : b * c == 0) by lra. destruct (Qmult_integral _ _ Z0); [contradiction|assumption]. } rewrite Y0, Y1, Ha, Hc. field. exact Hb.
    + apply (G (e / a) 0); [field; exact Ha| |split; reflexivity]. rewrite Y1. setoid_replace (c * (e / a) + d * 0) with ((c * e) / a) by (field; exact Ha). rewrite Y0. setoid_replace (c * (a * x0 + b * x1)) with (a * (c * x0) + (b * c) * x1) by ring. rewrite <- D'. field. exact Ha.
  - cbn [fst snd] in G. apply (G ((e * d - b * f) / (a * d - b * c)) ((a * f - c * e) / (a * d - b * c))); [| |split; reflexivity]; field; exact D.
Qed.
Definition fluid (kind : Z -> btype) (g : coord) (velf : Z -> coord) (flux : Z -> Q) : flow :=
  Flow (fun _ => vzero) velf (fun _ => 0) (fun _ => 0) flux (fun _ => 1) (fun _ => 1) g.
Example C77_case : let m := pair_mesh walls in let s := fluid walls vzero (fun _ => vzero) (fun _ => 0) in
  sound m /\ closed m /\ proper_geometry m /\ proper_fluid m s /\ exact_solver m solve2 /\ at_rest m s.
Proof.
  cbv zeta. split; [apply pair_mesh_sound|]. split; [apply pair_mesh_closed|]. split; [apply pair_mesh_geometry|]. split; [intros c _; split; [reflexivity|discriminate]|]. split; [apply solve2_exact|]. split; [reflexivity|].
  intros c I. split; [reflexivity|]. intros f J. split; [reflexivity|]. split; [reflexivity|]. intros _. split; reflexivity.
Qed.
(** A channel: fluid enters on the left with speed 1 and leaves on the right. *)
Definition channel : Z -> btype := fun f => if (f =? 1)%Z then BT_INLET_FLOW else if (f =? 6)%Z then BT_OUTLET else BT_WALL_NO_SLIP.
Definition channel_flow : flow := fluid channel vzero (fun f => if (f =? 1)%Z then Coord 1 0 0 else vzero) (fun f => if (f =? 1)%Z then 1 else 0).
Example C77_case_inlet : let m := pair_mesh channel in let q := pressure_system m solve2 1 channel_flow in
  sound m /\ solves m (q_A q) (q_b q) (solve2 (q_A q) (q_b q)) /\ (forall f, In f (pm_of m 0) -> interior m f \/ boundary m f BT_WALL_NO_SLIP \/ boundary m f BT_INLET_FLOW).
Proof.
  cbv zeta. split; [apply pair_mesh_sound|]. split.
  - intros c I. cbn in I. destruct I as [<-|[<-|[]]]; vm_compute; reflexivity.
  - intros f I. cbn in I. repeat (destruct I as [<-|I]; [first [left; exists 1%Z; reflexivity | right; left; split; reflexivity | right; right; split; reflexivity]|]). destruct I.
Qed.
(** In the channel the flux given at the inlet has the opposite sign of the fluxes inside: the solver reports a mass error of twice the inflow, although its pressure system is
    solved exactly. *)
Theorem C77_through_flow_refuted : exists m s c, sound m /\ In c (pm_cells m) /\ (let q := pressure_system m solve2 1 s in solves m (q_A q) (q_b q) (solve2 (q_A q) (q_b q))) /\
  mass_error m (s_flux (iterate m solve2 solve2 1 s)) c == 2.
Proof.
  exists (pair_mesh channel), channel_flow, 0%Z. split; [apply pair_mesh_sound|]. split; [now left|]. split.
  - cbv zeta. intros c I. cbn in I. destruct I as [<-|[<-|[]]]; vm_compute; reflexivity.
  - vm_compute. reflexivity.
Qed.
Print Assumptions C77_through_flow_refuted.
(** A closed column of fluid under gravity, at rest, starts to move: walls get the pressure of the cell next to them, so the gradient there is half of what balances the weight. *)
Theorem C77_hydrostatic_refuted : exists m s, sound m /\ closed m /\ proper_geometry m /\ proper_fluid m s /\ exact_solver m solve2 /\
  (forall c, s_vel s c = vzero) /\ (forall f, s_flux s f == 0) /\ s_g s = Coord (-1) 0 0 /\
  forall c, In c (pm_cells m) -> cx (s_vel (iterate m solve2 solve2 1 s) c) < 0.
Proof.
  exists (pair_mesh walls), (fluid walls (Coord (-1) 0 0) (fun _ => vzero) (fun _ => 0)). split; [apply pair_mesh_sound|]. split; [apply pair_mesh_closed|]. split; [apply pair_mesh_geometry|]. split; [intros c _; split; [reflexivity|discriminate]|]. split; [apply solve2_exact|].
  repeat split. intros c I. cbn in I. destruct I as [<-|[<-|[]]]; vm_compute; reflexivity.
Qed.
Print Assumptions C77_hydrostatic_refuted.
(** A lid moving along the face between the cells: the pressure stays level and without influence, but the velocity after the step does not satisfy the momentum
    equations, because the contributions of the neighbours are computed with the velocity of the cell itself. *)
Theorem C77_velocity_refuted : exists m s, sound m /\ closed m /\ proper_geometry m /\ proper_fluid m s /\
  let s' := iterate m solve2 solve2 1 s in
  (forall c f, In c (pm_cells m) -> In f (pm_of m c) -> s_flux s' f == 0) /\ (forall c, In c (pm_cells m) -> s_p s' c == 0) /\
  ~ row m (fst (momentum m 1 s)) (fun c => cz (s_vel s' c)) 0%Z == cz (snd (momentum m 1 s) 0%Z).
Proof.
  exists (pair_mesh walls), (fluid walls vzero (fun f => if (f =? 2)%Z then Coord 0 0 1 else vzero) (fun _ => 0)). split; [apply pair_mesh_sound|]. split; [apply pair_mesh_closed|]. split; [apply pair_mesh_geometry|]. split; [intros c _; split; [reflexivity|discriminate]|]. cbv zeta. split; [|split].
  - intros c f I J. cbn in I. destruct I as [<-|[<-|[]]]; cbn in J; repeat (destruct J as [<-|J]; [vm_compute; reflexivity|]); destruct J.
  - intros c I. cbn in I. destruct I as [<-|[<-|[]]]; vm_compute; reflexivity.
  - vm_compute. discriminate.
Qed.
Print Assumptions C77_velocity_refuted.
(** Whatever the solvers return: the pressures of all cells are not negative and the least is zero. *)
Lemma fold_min_le (p : Z -> Q) l a : fold_left (fun a d => Qmin a (p d)) l a <= a /\ (forall d, In d l -> fold_left (fun a d => Qmin a (p d)) l a <= p d) /\
  (fold_left (fun a d => Qmin a (p d)) l a == a \/ exists d, In d l /\ fold_left (fun a d => Qmin a (p d)) l a == p d).
Proof.
  revert a. induction l as [|x l IH]; intros a; cbn [fold_left]; [split; [lra|split; [intros d []|now left]]|]. destruct (IH (Qmin a (p x))) as (A & B & C). assert (M1 := Q.le_min_l a (p x)). assert (M2 := Q.le_min_r a (p x)).
  split; [lra|]. split; [intros d [<-|H]; [lra|now apply B]|]. destruct C as [C|(d & Hd & C)]; [|right; exists d; split; [now right|exact C]].
  destruct (Q.min_dec a (p x)) as [E|E]; [left; lra|right; exists x; split; [now left|lra]].
Qed.
Theorem C77_pressure_level : forall m su sp dt s, pm_cells m <> [] -> let p := s_p (iterate m su sp dt s) in
  (forall c, In c (pm_cells m) -> 0 <= p c) /\ exists c, In c (pm_cells m) /\ p c == 0.
Proof.
  intros m su sp dt s Hm p. unfold p, iterate. destruct (momentum m dt s) as [A b]. cbv zeta. destruct (correct_flux _ _ _ _ _) as [flux pf]. cbn [s_p].
  set (q := sp _ _). unfold least. destruct (pm_cells m) as [|c r]; [contradiction|]. destruct (fold_min_le q r (q c)) as (X & Y & Z0). split.
  - intros d [<-|H]; [lra|]. specialize (Y d H). lra.
  - destruct Z0 as [Z0|(d & Hd & Z0)]; [exists c; split; [now left|lra]|exists d; split; [now right|lra]].
Qed.
Print Assumptions C77_pressure_level.

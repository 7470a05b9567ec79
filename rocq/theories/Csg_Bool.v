(** Boolean operations and convex bodies. *)
From Coq Require Import QArith Qabs ZArith List Bool Lia Lqa Setoid.
From Verif Require Import Prelude Vec Seg_Model Seg_Spec Seg_Proofs Seg_Lists Face_Spec Grid_Spec Poly_Model Poly_Spec Poly_Proofs Csg_Model Csg_Spec Csg_Hull Csg_Ring Csg_Split Csg_Proofs.
Import ListNotations.
Open Scope Q_scope.

(** ** Inverted polygons *)
Lemma points_invert q p : points (poly_invert q) p <-> points q p.
Proof.
  unfold points, poly_invert, vl_invert. cbn [pv]. split; apply hull_trans; intros c Hc; apply hull_in; [now apply in_rev|now apply -> in_rev].
Qed.

Lemma vopp_nonzero n : ~ n =v= vzero -> ~ vopp n =v= vzero.
Proof. intros H (A & B & C). cbn [vopp vzero cx cy cz] in *. apply H. repeat split; cbn [vzero cx cy cz]; lra. Qed.

Lemma dot_vopp n v : dot (vopp n) v == - dot n v. Proof. unfold dot. cbn [vopp cx cy cz]. ring. Qed.

Lemma flat_invert1 q : flat q -> flat (poly_invert q).
Proof.
  intros [N [c Hc]]. split; [now apply vopp_nonzero|]. exists (- c). intros v Hv. cbn [poly_invert pn pv] in *.
  unfold vl_invert in Hv. apply in_rev in Hv. rewrite dot_vopp, Hc by exact Hv. reflexivity.
Qed.
Lemma flat_invert q : flat (poly_invert q) <-> flat q.
Proof. split; [|apply flat_invert1]. intros H. rewrite <- (poly_invert_twice q). now apply flat_invert1. Qed.

Lemma convex_invert1 q : convex_poly q -> convex_poly (poly_invert q).
Proof.
  intros [F C]. split; [now apply flat_invert1|]. cbn [poly_invert pn pv]. unfold vl_invert. intros i j k O K. rewrite rev_length in K.
  rewrite !rev_nth by lia.
  assert (E : forall a b c, turn (vopp (pn q)) a b c == turn (pn q) c b a) by (intros; unfold turn; rewrite dot_vopp; tring).
  rewrite E. apply C; lia.
Qed.
Lemma convex_invert q : convex_poly (poly_invert q) <-> convex_poly q.
Proof. split; [|apply convex_invert1]. intros H. rewrite <- (poly_invert_twice q). now apply convex_invert1. Qed.

Lemma empty_invert q : pv (poly_invert q) = [] <-> pv q = [].
Proof.
  unfold poly_invert, vl_invert. cbn [pv]. split; intros H; [|now rewrite H]. rewrite <- (rev_involutive (pv q)), H. reflexivity.
Qed.

Lemma usable_invert q : usable q -> usable (poly_invert q).
Proof. intros [F N]. split; [now apply flat_invert1|now rewrite empty_invert]. Qed.

Lemma part_invert r q : part_of r q -> part_of (poly_invert r) (poly_invert q).
Proof.
  intros (E & H & A & B & C). split; [cbn; now rewrite E|]. split.
  - intros v Hv. rewrite points_invert. apply H. cbn [poly_invert pv] in Hv. unfold vl_invert in Hv. now apply in_rev.
  - rewrite !flat_invert, !convex_invert, !empty_invert. tauto.
Qed.

(** ** What is stored *)
Definition from (L : list poly) (t : bsp) : Prop := forall r, In r (stored t) -> exists q, In q L /\ part_of r q.

Lemma from_invert L t : from L t -> from (map poly_invert L) (invert t).
Proof.
  intros H r Hr. apply stored_invert_in in Hr as (s & Hs & ->). destruct (H s Hs) as (q & Hq & P).
  exists (poly_invert q). split; [now apply in_map|now apply part_invert].
Qed.

Lemma clip_to_from tol rcf other t t' L : 0 <= tol -> other <> Null -> planes_set other -> clip_to tol rcf other t = Ok t' -> from L t -> from L t'.
Proof.
  intros Ht N S E H r Hr. destruct (clip_to_sound tol rcf other Ht N S t t' E r Hr) as (s & Hs & P & _).
  destruct (H s Hs) as (q & Hq & Q). exists q. split; [exact Hq|exact (part_trans _ _ _ P Q)].
Qed.

Lemma from_usable L t : Forall usable L -> from L t -> Forall usable (stored t).
Proof.
  rewrite !Forall_forall. intros U H r Hr. destruct (H r Hr) as (q & Hq & P). apply (usable_part r q P). now apply U.
Qed.

Definition all_outside (tol : Q) (other : bsp) (t : bsp) : Prop := forall r p, In r (stored t) -> points r p -> outside_closed tol other p.

Lemma clip_to_outside tol rcf other t t' : 0 <= tol -> other <> Null -> planes_set other -> clip_to tol rcf other t = Ok t' -> all_outside tol other t'.
Proof. intros Ht N S E r p Hr Hp. destruct (clip_to_sound tol rcf other Ht N S t t' E r Hr) as (s & _ & _ & O). now apply O. Qed.

Lemma all_outside_invert tol other t : all_outside tol other t -> all_outside tol other (invert t).
Proof. intros H r p Hr Hp. apply stored_invert_in in Hr as (s & Hs & ->). rewrite points_invert in Hp. exact (H s p Hs Hp). Qed.

Lemma map_invert_usable L : Forall usable L -> Forall usable (map poly_invert L).
Proof. rewrite !Forall_forall. intros H r Hr. apply in_map_iff in Hr as (q & <- & Hq). now apply usable_invert, H. Qed.

Definition has (t : bsp) (n p : coord) : Prop := exists r, In r (stored t) /\ convex_poly r /\ pn r = n /\ points r p.

Lemma has_invert t n p : has t n p -> has (invert t) (vopp n) p.
Proof.
  intros (r & Hr & C & <- & Hp). exists (poly_invert r). split; [apply stored_invert_in; eauto|]. split; [now apply convex_invert1|].
  split; [reflexivity|now apply points_invert].
Qed.

Lemma has_clip rcf other t t' n p : clip_to 0 rcf other t = Ok t' -> has t n p -> outside_open other p -> has t' n p.
Proof.
  intros E (q & Hq & C & <- & Hp) O. destruct (clip_to_complete rcf other t t' E q p Hq C Hp O) as (r & Hr & P & Rp).
  exists r. split; [exact Hr|]. pose proof P as (En & _ & _ & Cn & _). split; [now apply Cn|]. split; [exact En|exact Rp].
Qed.

Lemma vopp_twice n : vopp (vopp n) = n. Proof. destruct n as [x y z]. unfold vopp. cbn [cx cy cz]. now rewrite !Qopp_opp. Qed.

Lemma has_build fuel t ps t' n p : t <> Null -> Forall usable ps -> (length ps < fuel)%nat -> build 0 fuel t ps = Ok t' ->
  (has t n p \/ exists q, In q ps /\ convex_poly q /\ pn q = n /\ points q p) -> has t' n p.
Proof.
  intros N U L E H. destruct (build_spec 0 ltac:(lra) fuel t ps N U L) as (t'' & E' & _ & _ & _ & B & C). rewrite E in E'. injection E' as <-.
  destruct H as [(r & Hr & Cr & En & Rp)|(q & Hq & Cq & En & Qp)].
  - exists r. split; [now apply B|]. tauto.
  - destruct (C eq_refl q p Hq Cq Qp) as (r & Hr & P & Rp). exists r. split; [exact Hr|]. pose proof P as (En' & _ & _ & Cn & _).
    split; [now apply Cn|]. split; [congruence|exact Rp].
Qed.

Section Operations.
Variables (tol : Q) (A B : list poly).
Hypothesis (Ht : 0 <= tol) (HA : A <> []) (HB : B <> []) (UA : Forall usable A) (UB : Forall usable B).

Definition covers (R L : list poly) (side : coord -> Prop) (flip : coord -> coord) : Prop :=
  forall q p, In q L -> points q p -> side p -> exists r, In r R /\ pn r = flip (pn q) /\ points r p.

Lemma invert_nn t : t <> Null -> invert t <> Null. Proof. intros H E. apply H. exact (proj1 (invert_null t) E). Qed.
Lemma same_nn t t' : same_planes t t' -> t <> Null -> t' <> Null. Proof. intros S H E. apply H. exact (proj2 (same_null _ _ S) E). Qed.

Lemma from_of_bsp L t : (forall r, In r (stored t) -> exists q, In q L /\ part_of r q) -> from L t. Proof. auto. Qed.

Lemma add_spec : exists ta tb R, bsp_of tol A = Ok ta /\ bsp_of tol B = Ok tb /\ csg_add tol A B = Ok R /\
  (forall r, In r R ->
     (exists q, In q A /\ part_of r q /\ forall p, points r p -> outside_closed tol tb p) \/
     (exists q, In q B /\ part_of r q /\ forall p, points r p -> outside_closed tol ta p)) /\
  (tol = 0 -> Forall convex_poly A -> Forall convex_poly B ->
     covers R A (outside_open tb) (fun n => n) /\ covers R B (outside_open ta) (fun n => n)).
Proof.
  destruct (bsp_of_spec tol A Ht HA UA) as (ta & Ea & Na & Sa & Fa & Ca).
  destruct (bsp_of_spec tol B Ht HB UB) as (tb & Eb & Nb & Sb & Fb & Cb).
  destruct (clip_to_defined tol false tb ta Sb) as (a1 & Ea1 & Pa1).
  assert (Na1 := same_nn _ _ Pa1 Na). assert (Sa1 := same_set _ _ Pa1 Sa).
  destruct (clip_to_defined tol false a1 tb Sa1) as (b1 & Eb1 & Pb1).
  destruct (clip_to_defined tol false a1 (invert b1) Sa1) as (b2 & Eb2 & Pb2).
  assert (FB : from B (invert b2)).
  { pose proof (clip_to_from _ _ _ _ _ _ Ht Na1 Sa1 Eb1 Fb) as F1. pose proof (from_invert _ _ F1) as F2.
    pose proof (clip_to_from _ _ _ _ _ _ Ht Na1 Sa1 Eb2 F2) as F3. pose proof (from_invert _ _ F3) as F4.
    rewrite map_map in F4. rewrite <- (map_id B). erewrite map_ext; [exact F4|]. intros q. cbn. now rewrite poly_invert_twice. }
  set (ps := stored (invert b2)).
  assert (Ups : Forall usable ps) by (apply (from_usable B); assumption).
  assert (Lps : (length ps < S (length ps))%nat) by lia.
  destruct (build_spec tol Ht (S (length ps)) a1 ps Na1 Ups Lps) as (a2 & Ea2 & _ & _ & Da2 & _ & _).
  exists ta, tb, (stored a2). split; [exact Ea|]. split; [exact Eb|]. split.
  { unfold csg_add. rewrite Ea. cbn [bind]. rewrite Eb. cbn [bind]. rewrite Ea1. cbn [bind]. rewrite Eb1. cbn [bind]. rewrite Eb2. cbn [bind].
    cbv zeta. rewrite all_polygons_stored. fold ps. rewrite Ea2. cbn [bind]. now rewrite all_polygons_stored. }
  split.
  - intros r Hr. destruct (Da2 r Hr) as [Hr'|(s & Hs & P)].
    + left. destruct (clip_to_sound _ _ _ Ht Nb Sb _ _ Ea1 r Hr') as (s & Hs & P & O). destruct (Fa s Hs) as (q & Hq & Q).
      exists q. split; [exact Hq|]. split; [exact (part_trans _ _ _ P Q)|exact O].
    + right. destruct (FB s Hs) as (q & Hq & Q). exists q. split; [exact Hq|]. split; [exact (part_trans _ _ _ P Q)|].
      intros p Hp. apply (part_points _ _ _ P) in Hp. rewrite (same_outside_c tol ta a1 p Pa1).
      exact (all_outside_invert _ _ _ (clip_to_outside _ _ _ _ _ Ht Na1 Sa1 Eb2) s p Hs Hp).
  - intros T CA CB. rewrite Forall_forall in CA, CB. rewrite T in *. split.
    + intros q p Hq Hp O. destruct (Ca eq_refl q p Hq (CA q Hq) Hp) as (r & Hr & P & Rp). pose proof P as (En & _ & _ & Cn & _).
      assert (H0 : has ta (pn q) p) by (exists r; split; [exact Hr|]; split; [now apply Cn, CA|]; tauto).
      pose proof (has_clip _ _ _ _ _ _ Ea1 H0 O) as H1.
      destruct (has_build _ _ _ _ _ _ Na1 Ups Lps Ea2 (or_introl H1)) as (s & Hs & _ & X). exists s. tauto.
    + intros q p Hq Hp O. destruct (Cb eq_refl q p Hq (CB q Hq) Hp) as (r & Hr & P & Rp). pose proof P as (En & _ & _ & Cn & _).
      assert (H0 : has tb (pn q) p) by (exists r; split; [exact Hr|]; split; [now apply Cn, CB|]; tauto).
      rewrite (same_outside ta a1 p Pa1) in O.
      pose proof (has_invert _ _ _ (has_clip _ _ _ _ _ _ Eb1 H0 O)) as H1.
      pose proof (has_invert _ _ _ (has_clip _ _ _ _ _ _ Eb2 H1 O)) as H2. rewrite vopp_twice in H2.
      destruct (has_build _ _ _ _ (pn q) p Na1 Ups Lps Ea2 (or_intror H2)) as (s & Hs & _ & X). exists s. tauto.
Qed.

Lemma subtract_spec : exists ta tb R, bsp_of tol A = Ok ta /\ bsp_of tol B = Ok tb /\ csg_subtract tol A B = Ok R /\
  (forall r, In r R ->
     (exists q, In q A /\ part_of r q /\ forall p, points r p -> outside_closed tol tb p) \/
     (exists q, In q B /\ part_of r (poly_invert q) /\ forall p, points r p -> inside_closed tol ta p)) /\
  (tol = 0 -> Forall convex_poly A -> Forall convex_poly B ->
     covers R A (outside_open tb) (fun n => n) /\ covers R B (inside_open ta) vopp).
Proof.
  destruct (bsp_of_spec tol A Ht HA UA) as (ta & Ea & Na & Sa & Fa & Ca).
  destruct (bsp_of_spec tol B Ht HB UB) as (tb & Eb & Nb & Sb & Fb & Cb).
  destruct (clip_to_defined tol false tb (invert ta) Sb) as (a1 & Ea1 & Pa1).
  assert (Na1 := same_nn _ _ Pa1 (invert_nn _ Na)). assert (Sa1 := same_set _ _ Pa1 (invert_planes _ Sa)).
  destruct (clip_to_defined tol true a1 tb Sa1) as (b1 & Eb1 & Pb1).
  assert (FB : from B b1) by (exact (clip_to_from _ _ _ _ _ _ Ht Na1 Sa1 Eb1 Fb)).
  set (ps := stored b1).
  assert (Ups : Forall usable ps) by (apply (from_usable B); assumption).
  assert (Lps : (length ps < S (length ps))%nat) by lia.
  destruct (build_spec tol Ht (S (length ps)) a1 ps Na1 Ups Lps) as (a2 & Ea2 & _ & _ & Da2 & _ & _).
  exists ta, tb, (stored (invert a2)). split; [exact Ea|]. split; [exact Eb|]. split.
  { unfold csg_subtract. rewrite Ea. cbn [bind]. rewrite Eb. cbn [bind]. rewrite Ea1. cbn [bind]. rewrite Eb1. cbn [bind].
    cbv zeta. rewrite all_polygons_stored. fold ps. rewrite Ea2. cbn [bind]. now rewrite all_polygons_stored. }
  split.
  - intros r' Hr'. apply stored_invert_in in Hr' as (r & Hr & ->). destruct (Da2 r Hr) as [Hr'|(s & Hs & P)].
    + left. destruct (clip_to_sound _ _ _ Ht Nb Sb _ _ Ea1 r Hr') as (s & Hs & P & O).
      apply stored_invert_in in Hs as (s' & Hs' & ->). destruct (Fa s' Hs') as (q & Hq & Q).
      exists q. split; [exact Hq|]. split.
      * apply part_invert in P. rewrite poly_invert_twice in P. exact (part_trans _ _ _ P Q).
      * intros p Hp. rewrite points_invert in Hp. now apply O.
    + right. destruct (FB s Hs) as (q & Hq & Q). exists q. split; [exact Hq|]. split; [exact (part_invert _ _ (part_trans _ _ _ P Q))|].
      intros p Hp. rewrite points_invert in Hp. apply (part_points _ _ _ P) in Hp.
      rewrite <- invert_outside_c. rewrite (same_outside_c tol _ a1 p Pa1). exact (clip_to_outside _ _ _ _ _ Ht Na1 Sa1 Eb1 s p Hs Hp).
  - intros T CA CB. rewrite Forall_forall in CA, CB. rewrite T in *. split.
    + intros q p Hq Hp O. destruct (Ca eq_refl q p Hq (CA q Hq) Hp) as (r & Hr & P & Rp). pose proof P as (En & _ & _ & Cn & _).
      assert (H0 : has ta (pn q) p) by (exists r; split; [exact Hr|]; split; [now apply Cn, CA|]; tauto).
      pose proof (has_clip _ _ _ _ _ _ Ea1 (has_invert _ _ _ H0) O) as H1.
      pose proof (has_invert _ _ _ (has_build _ _ _ _ _ _ Na1 Ups Lps Ea2 (or_introl H1))) as (s & Hs & _ & X). rewrite vopp_twice in X. exists s. tauto.
    + intros q p Hq Hp O. destruct (Cb eq_refl q p Hq (CB q Hq) Hp) as (r & Hr & P & Rp). pose proof P as (En & _ & _ & Cn & _).
      assert (H0 : has tb (pn q) p) by (exists r; split; [exact Hr|]; split; [now apply Cn, CB|]; tauto).
      rewrite <- invert_outside, (same_outside _ a1 p Pa1) in O.
      pose proof (has_clip _ _ _ _ _ _ Eb1 H0 O) as H1.
      pose proof (has_invert _ _ _ (has_build _ _ _ _ (pn q) p Na1 Ups Lps Ea2 (or_intror H1))) as (s & Hs & _ & X). exists s. tauto.
Qed.

Lemma intersect_spec : exists ta tb R, bsp_of tol A = Ok ta /\ bsp_of tol B = Ok tb /\ csg_intersect tol A B = Ok R /\
  (forall r, In r R ->
     (exists q, In q A /\ part_of r q /\ forall p, points r p -> inside_closed tol tb p) \/
     (exists q, In q B /\ part_of r q /\ forall p, points r p -> inside_closed tol ta p)) /\
  (tol = 0 -> Forall convex_poly A -> Forall convex_poly B ->
     covers R A (inside_open tb) (fun n => n) /\ covers R B (inside_open ta) (fun n => n)).
Proof.
  destruct (bsp_of_spec tol A Ht HA UA) as (ta & Ea & Na & Sa & Fa & Ca).
  destruct (bsp_of_spec tol B Ht HB UB) as (tb & Eb & Nb & Sb & Fb & Cb).
  assert (Nia := invert_nn _ Na). assert (Sia := invert_planes _ Sa).
  destruct (clip_to_defined tol false (invert ta) tb Sia) as (b1 & Eb1 & Pb1).
  assert (Pib := same_invert _ _ Pb1).
  assert (Nib := same_nn _ _ Pib (invert_nn _ Nb)). assert (Sib := same_set _ _ Pib (invert_planes _ Sb)).
  destruct (clip_to_defined tol false (invert b1) (invert ta) Sib) as (a1 & Ea1 & Pa1).
  assert (Na1 := same_nn _ _ Pa1 Nia). assert (Sa1 := same_set _ _ Pa1 Sia).
  destruct (clip_to_defined tol false a1 (invert b1) Sa1) as (b2 & Eb2 & Pb2).
  assert (FB : from (map poly_invert B) b2).
  { apply (clip_to_from _ _ _ _ _ _ Ht Na1 Sa1 Eb2). apply from_invert. exact (clip_to_from _ _ _ _ _ _ Ht Nia Sia Eb1 Fb). }
  set (ps := stored b2).
  assert (Ups : Forall usable ps) by (apply (from_usable (map poly_invert B)); [now apply map_invert_usable|assumption]).
  assert (Lps : (length ps < S (length ps))%nat) by lia.
  destruct (build_spec tol Ht (S (length ps)) a1 ps Na1 Ups Lps) as (a2 & Ea2 & _ & _ & Da2 & _ & _).
  exists ta, tb, (stored (invert a2)). split; [exact Ea|]. split; [exact Eb|]. split.
  { unfold csg_intersect. rewrite Ea. cbn [bind]. rewrite Eb. cbn [bind]. cbv zeta. rewrite Eb1. cbn [bind]. rewrite Ea1. cbn [bind]. rewrite Eb2. cbn [bind].
    rewrite all_polygons_stored. fold ps. rewrite Ea2. cbn [bind]. now rewrite all_polygons_stored. }
  split.
  - intros r' Hr'. apply stored_invert_in in Hr' as (r & Hr & ->). destruct (Da2 r Hr) as [Hr'|(s & Hs & P)].
    + left. destruct (clip_to_sound _ _ _ Ht Nib Sib _ _ Ea1 r Hr') as (s & Hs & P & O).
      apply stored_invert_in in Hs as (s' & Hs' & ->). destruct (Fa s' Hs') as (q & Hq & Q).
      exists q. split; [exact Hq|]. split.
      * apply part_invert in P. rewrite poly_invert_twice in P. exact (part_trans _ _ _ P Q).
      * intros p Hp. rewrite points_invert in Hp. rewrite <- invert_outside_c, (same_outside_c tol _ _ p Pib). now apply O.
    + right. destruct (FB s Hs) as (q' & Hq' & Q). apply in_map_iff in Hq' as (q & <- & Hq). exists q. split; [exact Hq|]. split.
      * pose proof (part_invert _ _ (part_trans _ _ _ P Q)) as X. rewrite poly_invert_twice in X. exact X.
      * intros p Hp. rewrite points_invert in Hp. apply (part_points _ _ _ P) in Hp.
        rewrite <- invert_outside_c, (same_outside_c tol _ a1 p Pa1). exact (clip_to_outside _ _ _ _ _ Ht Na1 Sa1 Eb2 s p Hs Hp).
  - intros T CA CB. rewrite Forall_forall in CA, CB. rewrite T in *. split.
    + intros q p Hq Hp O. destruct (Ca eq_refl q p Hq (CA q Hq) Hp) as (r & Hr & P & Rp). pose proof P as (En & _ & _ & Cn & _).
      assert (H0 : has ta (pn q) p) by (exists r; split; [exact Hr|]; split; [now apply Cn, CA|]; tauto).
      rewrite <- invert_outside, (same_outside _ _ p Pib) in O.
      pose proof (has_clip _ _ _ _ _ _ Ea1 (has_invert _ _ _ H0) O) as H1.
      pose proof (has_invert _ _ _ (has_build _ _ _ _ _ _ Na1 Ups Lps Ea2 (or_introl H1))) as (s & Hs & _ & X). rewrite vopp_twice in X. exists s. tauto.
    + intros q p Hq Hp O. destruct (Cb eq_refl q p Hq (CB q Hq) Hp) as (r & Hr & P & Rp). pose proof P as (En & _ & _ & Cn & _).
      assert (H0 : has tb (pn q) p) by (exists r; split; [exact Hr|]; split; [now apply Cn, CB|]; tauto).
      rewrite <- invert_outside in O.
      pose proof (has_invert _ _ _ (has_clip _ _ _ _ _ _ Eb1 H0 O)) as H1.
      rewrite (same_outside _ a1 p Pa1) in O.
      pose proof (has_clip _ _ _ _ _ _ Eb2 H1 O) as H2.
      pose proof (has_invert _ _ _ (has_build _ _ _ _ (vopp (pn q)) p Na1 Ups Lps Ea2 (or_intror H2))) as (s & Hs & _ & X). rewrite vopp_twice in X. exists s. tauto.
Qed.
End Operations.

(** ** Convex bodies *)
Lemma flat_map_none {X Y} (f : X -> list Y) l : (forall x, In x l -> f x = []) -> flat_map f l = [].
Proof. induction l as [|x l IH]; intros H; [reflexivity|]. cbn [flat_map]. rewrite (H x (or_introl eq_refl)), IH; [reflexivity|]. intros y Hy. apply H. now right. Qed.
Lemma dot_scale_l k a b : dot (vscale k a) b == k * dot a b.
Proof. unfold dot. cbn [vscale cx cy cz]. ring. Qed.

Lemma build_convex fuel : forall ps, ps <> [] -> Forall usable ps -> convex_surface ps -> (length ps < fuel)%nat ->
  exists t, build 0 fuel fresh ps = Ok t /\ t <> Null /\ forall p,
    (outside_open t p <-> exists q, In q ps /\ 0 < above q p) /\
    (inside_open t p <-> forall q, In q ps -> above q p < 0) /\
    (outside_closed 0 t p <-> exists q, In q ps /\ 0 <= above q p) /\
    (inside_closed 0 t p <-> forall q, In q ps -> above q p <= 0).
Proof.
  assert (Z : 0 <= 0) by lra.
  induction fuel as [|fuel IH]; intros ps Hne U [CS FA] L; [lia|].
  destruct ps as [|q0 ps']; [now elim Hne|]. cbn [build fresh].
  pose proof (Forall_inv U) as [F0 N0]. destruct (pv q0) as [|v0 w] eqn:Ev; [now elim N0|].
  set (h := Plane (pn q0) (dot (pn q0) v0)). set (ps := q0 :: ps') in *.
  assert (Iq0 : In q0 ps) by now left.
  assert (Vh : forall p, val h p == above q0 p) by (intros p; unfold val, above, h; cbn [p_normal p_d]; rewrite Ev; reflexivity).
  (* every polygon is either in the plane or behind it *)
  assert (Split : forall q, In q ps ->
     (s_front (split h 0 q) = [] /\ s_back (split h 0 q) = [] /\ forall v, In v (pv q) -> above q0 v == 0) \/
     (s_front (split h 0 q) = [] /\ s_back (split h 0 q) = [q])).
  { intros q Hq. assert (Bq : forall v, In v (pv q) -> val h v <= 0) by (intros v Hv; rewrite Vh; exact (CS q0 q v Iq0 Hq Hv)).
    destruct (split_cases h 0 q Z) as [[A [[_ ->]|[_ ->]]]|[((v & Hv & X) & _)|[(_ & _ & ->)|(u & v & Hu & _ & X & _)]]].
    - left. split; [reflexivity|]. split; [reflexivity|]. intros v Hv. rewrite <- Vh. apply A in Hv. lra.
    - left. split; [reflexivity|]. split; [reflexivity|]. intros v Hv. rewrite <- Vh. apply A in Hv. lra.
    - apply Bq in Hv. lra.
    - right. split; reflexivity.
    - apply Bq in Hu. lra. }
  assert (Sf : flat_map (fun q => s_front (split h 0 q)) ps = []).
  { apply flat_map_none. intros q Hq. destruct (Split q Hq) as [X|X]; tauto. }
  rewrite Sf. cbn [bind].
  set (sb := flat_map (fun q => s_back (split h 0 q)) ps).
  assert (Sb : forall q, In q sb -> In q ps).
  { intros q Hq. apply in_flat_map in Hq as (r & Hr & Hq). destruct (Split r Hr) as [(_ & E & _)|(_ & E)]; rewrite E in Hq; [destruct Hq|].
    destruct Hq as [<-|[]]. exact Hr. }
  assert (Co : forall q, In q ps -> ~ In q sb -> exists k, 0 < k /\ forall p, above q p == k * above q0 p).
  { intros q Hq Hn. destruct (Split q Hq) as [(_ & _ & V)|(_ & E)].
    - destruct (FA q0 q Iq0 Hq V) as (k & Hk & En). exists k. split; [exact Hk|]. intros p.
      assert (Hd : above q0 (hd vzero (pv q)) == 0).
      { apply V. rewrite Forall_forall in U. destruct (U q Hq) as [_ Nq]. destruct (pv q); [now elim Nq|now left]. }
      unfold above in *. rewrite !En, !dot_scale_l. nra.
    - exfalso. apply Hn. apply in_flat_map. exists q. split; [exact Hq|]. rewrite E. now left. }
  assert (Dec : forall q, In q ps -> In q sb \/ exists k, 0 < k /\ forall p, above q p == k * above q0 p).
  { intros q Hq. destruct (Split q Hq) as [(_ & _ & V)|(_ & E)].
    - right. destruct (FA q0 q Iq0 Hq V) as (k & Hk & En). exists k. split; [exact Hk|]. intros p.
      assert (Hd : above q0 (hd vzero (pv q)) == 0).
      { apply V. rewrite Forall_forall in U. destruct (U q Hq) as [_ Nq]. destruct (pv q); [now elim Nq|now left]. }
      unfold above in *. rewrite !En, !dot_scale_l. nra.
    - left. apply in_flat_map. exists q. split; [exact Hq|]. rewrite E. now left. }
  clear Co.
  (* the chain behind *)
  assert (Back : exists b, match sb with [] => Ok Null | _ => build 0 fuel fresh sb end = Ok b /\
    (b = Null <-> sb = []) /\ forall p,
    (outside_open b p <-> exists q, In q sb /\ 0 < above q p) /\
    ((b = Null \/ inside_open b p) <-> forall q, In q sb -> above q p < 0) /\
    (outside_closed 0 b p <-> exists q, In q sb /\ 0 <= above q p) /\
    ((b = Null \/ inside_closed 0 b p) <-> forall q, In q sb -> above q p <= 0)).
  { destruct sb as [|s0 s'] eqn:Es.
    - exists Null. split; [reflexivity|]. split; [tauto|]. intros p. cbn.
      repeat match goal with |- _ /\ _ => split end; split; try tauto; try (intros (q & [] & _)); intros; try tauto; now left.
    - rewrite <- Es in *. assert (Hne' : sb <> []) by (rewrite Es; discriminate).
      assert (U' : Forall usable sb) by (rewrite Forall_forall in *; intros q Hq; apply U, Sb, Hq).
      assert (C' : convex_surface sb) by (split; [intros q r v Hq Hr; apply CS; now apply Sb|intros q r Hq Hr; apply FA; now apply Sb]).
      assert (L' : (length sb < fuel)%nat).
      { destruct (own_plane 0 q0 v0 Z F0) as [_ Sb0]; [rewrite Ev; now left|]. fold h in Sb0.
        unfold sb, ps. cbn [flat_map]. rewrite Sb0. cbn [app].
        pose proof (flat_map_short (fun q => s_back (split h 0 q)) ps' (fun q _ => proj2 (split_short h 0 q Z))). unfold ps in L. cbn [length] in L. lia. }
      destruct (IH sb Hne' U' C' L') as (b & Eb & Nb & Hb). exists b. rewrite Es in Eb |- *. rewrite <- Es in *. split; [exact Eb|].
      split; [split; intros; contradiction|]. intros p. destruct (Hb p) as (H1 & H2 & H3 & H4). tauto. }
  destruct Back as (b & Eb & Nb & Hb). rewrite Eb. cbn [bind].
  eexists. split; [reflexivity|]. split; [discriminate|]. intros p. destruct (Hb p) as (H1 & H2 & H3 & H4).
  rewrite outside_val, inside_val, outside_c_val, inside_c_val, H1, H2, H3, H4, !Vh. cbn [outside_open inside_open outside_closed inside_closed].
  assert (Sgn : forall k x, 0 < k -> (0 < k * x <-> 0 < x) /\ (k * x < 0 <-> x < 0) /\ (0 <= k * x <-> 0 <= x) /\ (k * x <= 0 <-> x <= 0)).
  { intros k x Hk. repeat match goal with |- _ /\ _ => split end; split; intros; nra. }
  repeat match goal with |- _ /\ _ => split end.
  - split.
    + intros [[V _]|[[V (q & Hq & X)]|[V [_ (q & Hq & X)]]]]; [exists q0; tauto|exists q; split; [now apply Sb|exact X]|exists q; split; [now apply Sb|exact X]].
    + intros (q & Hq & X). destruct (Dec q Hq) as [D|(k & Hk & E)].
      * destruct (Qlt_le_dec 0 (above q0 p)); [left; tauto|]. destruct (Qlt_le_dec (above q0 p) 0); [right; left; eauto|right; right].
        split; [lra|]. split; [tauto|eauto].
      * left. rewrite E in X. apply Sgn in X; [tauto|exact Hk].
  - split.
    + intros [[V X]|[[_ []]|[_ [_ []]]]] q Hq. destruct (Dec q Hq) as [D|(k & Hk & E)]; [now apply X|]. rewrite E. now apply Sgn.
    + intros X. left. split; [now apply X|]. intros q Hq. now apply X, Sb.
  - split.
    + intros [[V _]|[V (q & Hq & X)]]; [exists q0; split; [exact Iq0|lra]|exists q; split; [now apply Sb|exact X]].
    + intros (q & Hq & X). destruct (Dec q Hq) as [D|(k & Hk & E)].
      * destruct (Qlt_le_dec (above q0 p) 0); [right; split; [lra|eauto]|left; split; [lra|tauto]].
      * left. rewrite E in X. apply Sgn in X; [split; [lra|tauto]|exact Hk].
  - split.
    + intros [[V X]|[_ []]] q Hq. destruct (Dec q Hq) as [D|(k & Hk & E)]; [now apply X|]. rewrite E. now apply Sgn.
    + intros X. left. split; [now apply X|]. intros q Hq. now apply X, Sb.
Qed.

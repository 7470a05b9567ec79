(** Proofs about remesh of beams. *)
From Coq Require Import ZArith List Bool QArith Qround Lia Lqa Permutation.
From Verif Require Import Prelude Vec ZMap Mesh_Model HashGrid_Model Face_Model Query_Model Merge_Model Merge_Spec Mesh_Spec Mesh_Proofs Face_Spec Face_Proofs
  Front_Model Front_Spec Front_Proofs Front_Finish Tune_Model Tune_Spec Tune_Proofs Tune_Faces Resize_Model Resize_Spec Resize_Proofs Adt_Proofs.
Import ListNotations.
Open Scope Z_scope.

(** ** Rounding *)
Lemma pieces_spec size v : (0 < size)%Q -> exists k, pieces size v = Ok k /\ 0 <= k /\
  (4 * norm2 v < inject_Z (2 * k + 1) * inject_Z (2 * k + 1) * (size * size))%Q /\
  (1 <= k -> (inject_Z (2 * k - 1) * inject_Z (2 * k - 1) * (size * size) <= 4 * norm2 v)%Q).
Proof.
  intros Hs. unfold pieces.
  assert (Qeq_bool size 0 = false) as ->. { apply not_true_is_false. intros C. apply Qeq_bool_iff in C. lra. }
  assert (Qlt_bool size 0 = false) as ->. { apply not_true_is_false. intros C. apply Qlt_bool_iff in C. lra. }
  set (x := (4 * norm2 v / (size * size))%Q). assert (Hss : (0 < size * size)%Q) by (apply Qmult_lt_0_compat; assumption).
  assert (Hn : (0 <= norm2 v)%Q) by (unfold norm2, dot; nra).
  assert (Hx : (x * (size * size) == 4 * norm2 v)%Q) by (unfold x; field; lra).
  assert (Hx0 : (0 <= x)%Q). { unfold x. apply Qle_shift_div_l; [assumption|]. lra. }
  assert (Hf : 0 <= Qfloor x). { change 0 with (Qfloor 0). now apply Qfloor_resp_le. }
  destruct (Z.sqrt_spec (Qfloor x) Hf) as [A B]. pose proof (Z.sqrt_nonneg (Qfloor x)) as Hq. set (q := Z.sqrt (Qfloor x)) in *. clearbody q.
  pose proof (Qfloor_le x) as Fl. pose proof (Qlt_floor x) as Fu. clearbody x.
  set (k := (q + 1) / 2). assert (Hk : 2 * k <= q + 1 <= 2 * k + 1) by (unfold k; pose proof (Z.div_mod (q + 1) 2); pose proof (Z.mod_pos_bound (q + 1) 2); lia).
  clearbody k. exists k. split; [reflexivity|]. split; [lia|]. split.
  - rewrite <- Hx. apply Qmult_lt_compat_r; [exact Hss|]. rewrite <- inject_Z_mult. eapply Qlt_le_trans; [exact Fu|]. rewrite <- Zle_Qle. nia.
  - intros H1. rewrite <- Hx. apply Qmult_le_compat_r; [|now apply Qlt_le_weak]. rewrite <- inject_Z_mult. eapply Qle_trans; [|exact Fl]. rewrite <- Zle_Qle. nia.
Qed.

Definition short (size : Q) (v : coord) : Prop := (4 * norm2 v < 9 * (size * size))%Q.

Lemma short_one size v k : (0 < size)%Q -> short size v -> pieces size v = Ok k -> k <= 1.
Proof.
  intros Hs Hv Hk. destruct (pieces_spec size v Hs) as (k' & E & H0 & _ & Hl). rewrite E in Hk. injection Hk as ->.
  destruct (Z_le_gt_dec k 1) as [|G]; [assumption|exfalso]. specialize (Hl ltac:(lia)). unfold short in Hv.
  assert (L : (9 * (size * size) <= inject_Z (2 * k - 1) * inject_Z (2 * k - 1) * (size * size))%Q).
  { apply Qmult_le_compat_r; [|apply Qlt_le_weak, Qmult_lt_0_compat; assumption]. rewrite <- inject_Z_mult. change 9%Q with (inject_Z 9). rewrite <- Zle_Qle. nia. }
  lra.
Qed.

Lemma one_short size v k : (0 < size)%Q -> pieces size v = Ok k -> k <= 1 -> short size v.
Proof.
  intros Hs Hk H1. destruct (pieces_spec size v Hs) as (k' & E & H0 & Hu & _). rewrite E in Hk. injection Hk as ->. unfold short.
  assert (L : (inject_Z (2 * k + 1) * inject_Z (2 * k + 1) * (size * size) <= 9 * (size * size))%Q).
  { apply Qmult_le_compat_r; [|apply Qlt_le_weak, Qmult_lt_0_compat; assumption]. rewrite <- inject_Z_mult. change 9%Q with (inject_Z 9). rewrite <- Zle_Qle. nia. }
  lra.
Qed.

(** The number of pieces. *)
Lemma nearest_pieces size pa pb k : (0 < size)%Q -> pieces size (vsub pb pa) = Ok k -> nearest size pa pb (Z.to_nat (Z.max 1 k)).
Proof.
  intros Hs Hk. destruct (pieces_spec size (vsub pb pa) Hs) as (k' & E & H0 & Hu & Hl). rewrite E in Hk. injection Hk as ->.
  set (N := norm2 (vsub pb pa)) in *. unfold nearest. fold N. rewrite Z2Nat.id by lia. split; [lia|].
  assert (X : forall z, (inject_Z (2 * z + 1) == 2 * inject_Z z + 1)%Q) by (intros z; rewrite inject_Z_plus, inject_Z_mult; reflexivity).
  assert (Y : forall z, (inject_Z (2 * z - 1) == 2 * inject_Z z - 1)%Q) by (intros z; unfold Z.sub; rewrite inject_Z_plus, inject_Z_mult; reflexivity).
  assert (Hss : (0 < size * size)%Q) by (apply Qmult_lt_0_compat; assumption).
  destruct (Z.eq_dec k 0) as [->|Hne].
  - change (Z.max 1 0) with 1. split; [|left; reflexivity]. change (inject_Z 1) with 1%Q. change (inject_Z (2 * 0 + 1)) with 1%Q in Hu. nra.
  - rewrite Z.max_r by lia. rewrite X in Hu. split; [nra|]. right. specialize (Hl ltac:(lia)). rewrite Y in Hl. nra.
Qed.

(** ** One beam *)
Definition place_ (pa v : coord) (i ne : Z) : coord := vadd pa (vscale (inject_Z i / inject_Z ne) v).

Record strung (m1 : mesh) (id a n2 : Z) (pa v : coord) (ne : Z) (j : nat) (st : mesh * Z) (l ks : list Z) : Prop := Strung {
  sg_wf : wf_mesh (fst st);
  sg_faces : m_faces (fst st) = m_faces m1;
  sg_ids : t_ids (m_elems (fst st)) = t_ids (m_elems m1) ++ ks;
  sg_nids : t_ids (m_nodes (fst st)) = t_ids (m_nodes m1) ++ tl l;
  sg_nodes : forall k c, t_get (m_nodes m1) k = Ok c -> t_get (m_nodes (fst st)) k = Ok c;
  sg_other : forall k, k <> id -> In k (t_ids (m_elems m1)) -> t_get (m_elems (fst st)) k = t_get (m_elems m1) k;
  sg_len : length l = S j;
  sg_klen : length ks = j;
  sg_first : nth 0 l 0 = a;
  sg_last : nth j l 0 = snd st;
  sg_beam : beam (fst st) id (snd st) n2;
  sg_new : forall i, (i < j)%nat -> beam (fst st) (nth i ks 0) (nth i l 0) (nth (S i) l 0);
  sg_at : forall i, (i <= j)%nat -> exists c, t_get (m_nodes (fst st)) (nth i l 0) = Ok c /\ c =v= place_ pa v (Z.of_nat i) ne
}.

Lemma cut_fold m1 id a n2 pa v ne : wf_mesh m1 -> beam m1 id a n2 -> t_get (m_nodes m1) a = Ok pa -> 0 < ne -> forall j,
  exists st l ks, foldM (cut_piece id n2 pa v ne) (zrange j) (m1, a) = Ok st /\ strung m1 id a n2 pa v ne j st l ks.
Proof.
  intros W B Ha Hne. assert (NZ : ~ (inject_Z ne == 0)%Q) by (intros C; apply (proj1 (inject_Z_injective ne 0)) in C; lia).
  induction j as [|j (st & l & ks & E & G)].
  - exists (m1, a), [a], []. split; [reflexivity|]. constructor; cbn [fst snd length nth]; auto.
    + now rewrite app_nil_r.
    + now rewrite app_nil_r.
    + intros i Hi. lia.
    + intros i Hi. assert (i = 0%nat) by lia. subst i. exists pa. split; [exact Ha|]. unfold place_. change (inject_Z (Z.of_nat 0)) with 0%Q.
      unfold vadd, vscale, veq. cbn [cx cy cz]. split; [field; exact NZ|split; field; exact NZ].
  - rewrite zrange_S, foldM_app, E. cbn [bind foldM]. destruct st as [m2 prev]. destruct G as [G1 G2 G3 GN G4 G5 G6 G7 G8 G9 G10 G11 G12]. cbn [fst snd] in *.
    destruct G1 as (Wn & Wf & We). unfold cut_piece. cbn [fst snd].
    set (nw := t_next (m_nodes m2)). set (c := vadd pa (vscale (inject_Z (Z.of_nat j + 1) / inject_Z ne) v)).
    set (kn := t_next (m_elems m2)). set (en := Element ET_BEAM [prev; nw] []).
    pose proof (t_add_next_wf (m_nodes m2) c Wn) as Wn2. pose proof (t_add_next_wf (m_elems m2) en We) as We2. fold nw in Wn2. fold kn in We2.
    destruct (next_absent (m_nodes m2) Wn) as [An Ani]. destruct (next_absent (m_elems m2) We) as [Ae Aei]. fold nw in An, Ani. fold kn in Ae, Aei.
    destruct G10 as [fs G10]. pose proof (wf_get_in _ _ _ We G10) as Hid. assert (Hidk : id <> kn) by (intros ->; contradiction).
    assert (Gid : t_get (t_add (m_elems m2) kn en) id = Ok (Element ET_BEAM [prev; n2] fs)) by (rewrite t_get_add; destruct (Z.eqb_spec id kn); [contradiction|exact G10]).
    rewrite Gid. cbn [bind]. unfold set_ends. cbn [e_nodes bind]. unfold set_e_nodes. cbn [e_type e_faces].
    set (eb := Element ET_BEAM [nw; n2] fs).
    destruct (t_set_wf (t_add (m_elems m2) kn en) id eb We2) as [We3 Ge]; [cbn; apply in_app_iff; now left|].
    assert (Ge' : forall k, t_get (t_set (t_add (m_elems m2) kn en) id eb) k = if k =? id then Ok eb else if k =? kn then Ok en else t_get (m_elems m2) k).
    { intros k. rewrite Ge, t_get_add. reflexivity. }
    assert (Gn : forall k, t_get (t_add (m_nodes m2) nw c) k = if k =? nw then Ok c else t_get (m_nodes m2) k) by (intros k; apply t_get_add).
    eexists. exists (l ++ [nw]), (ks ++ [kn]). split; [reflexivity|].
    assert (Hks : forall i, (i < j)%nat -> nth i ks 0 <> id /\ nth i ks 0 <> kn).
    { intros i Hi. assert (Hin : In (nth i ks 0) ks) by (apply nth_In; lia). split; intros C.
      - assert (Nd : NoDup (t_ids (m_elems m1) ++ ks)) by (rewrite <- G3; apply We). rewrite C in Hin.
        assert (In id (t_ids (m_elems m1))) by (destruct B as [fb Bg]; exact (wf_get_in _ _ _ (proj2 (proj2 W)) Bg)).
        apply in_split in Hin. destruct Hin as (k1 & k2 & ->). rewrite app_assoc in Nd. apply NoDup_remove_2 in Nd. apply Nd. rewrite !in_app_iff. auto.
      - apply Aei. rewrite G3, in_app_iff. right. now rewrite <- C. }
    constructor; cbn [fst snd m_nodes m_faces m_elems].
    + split; [exact Wn2|]. split; [exact Wf|exact We3].
    + exact G2.
    + cbn [t_set t_ids t_add]. now rewrite G3, app_assoc.
    + cbn [t_ids t_add]. rewrite GN, <- app_assoc. destruct l as [|x0 l]; [discriminate|reflexivity].
    + intros k x Hx. rewrite Gn. apply G4 in Hx. destruct (Z.eqb_spec k nw) as [->|]; [congruence|exact Hx].
    + intros k Hk Hin. rewrite Ge'. destruct (Z.eqb_spec k id); [contradiction|]. destruct (Z.eqb_spec k kn) as [->|]; [|now apply G5].
      exfalso. apply Aei. rewrite G3, in_app_iff. now left.
    + rewrite app_length, G6. cbn. lia.
    + rewrite app_length, G7. cbn. lia.
    + rewrite app_nth1 by lia. exact G8.
    + rewrite app_nth2 by lia. replace (S j - length l)%nat with 0%nat by lia. reflexivity.
    + exists fs. cbn [m_elems]. rewrite Ge', Z.eqb_refl. reflexivity.
    + intros i Hi. destruct (Nat.eq_dec i j) as [->|Hij].
      * rewrite (app_nth2 ks) by lia. rewrite G7. replace (j - j)%nat with 0%nat by lia. cbn [nth]. rewrite (app_nth1 l) by lia. rewrite (app_nth2 l) by lia.
        replace (S j - length l)%nat with 0%nat by lia. cbn [nth]. rewrite G9. exists []. cbn [m_elems]. rewrite Ge'.
        destruct (Z.eqb_spec kn id); [congruence|]. now rewrite Z.eqb_refl.
      * rewrite !app_nth1 by lia. destruct (G11 i ltac:(lia)) as [fi Gi]. exists fi. cbn [m_elems]. rewrite Ge'.
        destruct (Hks i ltac:(lia)) as [K1 K2]. destruct (Z.eqb_spec (nth i ks 0) id); [contradiction|]. destruct (Z.eqb_spec (nth i ks 0) kn); [contradiction|exact Gi].
    + intros i Hi. destruct (Nat.eq_dec i (S j)) as [->|Hij].
      * rewrite app_nth2 by lia. replace (S j - length l)%nat with 0%nat by lia. cbn [nth]. exists c. split; [rewrite Gn, Z.eqb_refl; reflexivity|].
        unfold c, place_. replace (Z.of_nat (S j)) with (Z.of_nat j + 1) by lia. reflexivity.
      * rewrite app_nth1 by lia. destruct (G12 i ltac:(lia)) as (x & Hx & Ex). exists x. split; [|exact Ex]. rewrite Gn. destruct (Z.eqb_spec (nth i l 0) nw) as [E0|]; [rewrite E0 in Hx; congruence|exact Hx].
Qed.

(** ** A beam of the mesh *)
Lemma cut_beam_ok size m1 id e a b pa pb k : (0 < size)%Q -> wf_mesh m1 -> t_get (m_elems m1) id = Ok e -> e_type e = ET_BEAM -> e_nodes e = [a; b] ->
  t_get (m_nodes m1) a = Ok pa -> t_get (m_nodes m1) b = Ok pb -> pieces size (vsub pb pa) = Ok k ->
  exists m2 ks, cut_beam size m1 id e = Ok m2 /\ wf_mesh m2 /\ m_faces m2 = m_faces m1 /\ t_ids (m_elems m2) = t_ids (m_elems m1) ++ ks /\
    t_size (m_nodes m2) = t_size (m_nodes m1) + zlen ks /\ (k <= 1 -> m2 = m1) /\
    (forall n c, t_get (m_nodes m1) n = Ok c -> t_get (m_nodes m2) n = Ok c) /\
    (forall n, n <> id -> In n (t_ids (m_elems m1)) -> t_get (m_elems m2) n = t_get (m_elems m1) n) /\
    divided m2 a b pa pb (ks ++ [id]) /\ length (ks ++ [id]) = Z.to_nat (Z.max 1 k).
Proof.
  intros Hs W He Ty En Ha Hb Hk. unfold cut_beam. rewrite En. change (vec_at [a; b] 0) with (Ok a). change (vec_at [a; b] 1) with (Ok b). cbn [bind].
  rewrite Ha. cbn [bind]. rewrite Hb. cbn [bind]. rewrite Hk. cbn [bind]. assert (B : beam m1 id a b) by (exists (e_faces e); rewrite He; destruct e; cbn in *; congruence).
  destruct (pieces_spec size (vsub pb pa) Hs) as (k' & E' & K0 & _). rewrite Hk in E'. injection E' as <-.
  destruct (Z.eq_dec k 0) as [K|K].
  - subst k. change (zrange (Z.to_nat (0 - 1))) with (@nil Z). cbn [foldM bind fst]. exists m1, []. split; [reflexivity|]. split; [exact W|]. split; [reflexivity|].
    split; [now rewrite app_nil_r|]. split; [change (zlen (@nil Z)) with 0; lia|]. split; [auto|]. split; [auto|]. split; [auto|]. split; [|reflexivity].
    exists [a; b]. cbn [length app]. split; [reflexivity|]. split; [reflexivity|]. split; [reflexivity|]. split.
    + intros i Hi. assert (i = 0%nat) by lia. subst i. exact B.
    + intros i Hi. destruct i as [|[|]]; [| |lia]; cbn [nth]; [exists pa|exists pb]; (split; [assumption|]);
        unfold veq, vadd, vscale, vsub; cbn [cx cy cz]; split; [field|split; field| field | split; field].
  - destruct (cut_fold m1 id a b pa (vsub pb pa) k W B Ha ltac:(lia) (Z.to_nat (k - 1))) as (st & l & ks & Ef & G). rewrite Ef. cbn [bind].
    destruct G as [G1 G2 G3 GN G4 G5 G6 G7 G8 G9 G10 G11 G12]. exists (fst st), ks. split; [reflexivity|]. split; [exact G1|]. split; [exact G2|]. split; [exact G3|].
    split. { unfold t_size, zlen. rewrite GN, app_length. destruct l; [discriminate|]. cbn [tl length] in *. lia. }
    split. { intros K1. replace (k - 1) with 0 in Ef by lia. cbn in Ef. injection Ef as <-. reflexivity. }
    split; [exact G4|]. split; [exact G5|]. split.
    + assert (Lk : length (ks ++ [id]) = Z.to_nat k) by (rewrite app_length; cbn [length]; lia).
      exists (l ++ [b]). rewrite Lk. split; [rewrite app_length; cbn [length]; lia|]. split; [rewrite app_nth1 by lia; exact G8|].
      split; [rewrite app_nth2 by lia; replace (Z.to_nat k - length l)%nat with 0%nat by lia; reflexivity|]. split.
      * intros i Hi. destruct (Nat.eq_dec i (length ks)) as [->|Hij].
        -- rewrite (app_nth2 ks) by lia. rewrite Nat.sub_diag. cbn [nth]. rewrite (app_nth1 l) by lia. rewrite (app_nth2 l) by lia.
           replace (S (length ks) - length l)%nat with 0%nat by lia. cbn [nth]. rewrite G7, G9. exact G10.
        -- rewrite !app_nth1 by lia. apply G11. lia.
      * intros i Hi. destruct (Nat.eq_dec i (Z.to_nat k)) as [->|Hij].
        -- rewrite app_nth2 by lia. replace (Z.to_nat k - length l)%nat with 0%nat by lia. cbn [nth]. exists pb. split; [auto|].
           assert (NZ : ~ (inject_Z (Z.of_nat (Z.to_nat k)) == 0)%Q) by (rewrite Z2Nat.id by lia; intros C; apply (proj1 (inject_Z_injective k 0)) in C; lia).
           unfold veq, vadd, vscale, vsub; cbn [cx cy cz]; split; [field; exact NZ|split; field; exact NZ].
        -- rewrite app_nth1 by lia. destruct (G12 i ltac:(lia)) as (c & Hc & Ec). exists c. split; [exact Hc|]. rewrite Ec. unfold place_. rewrite Z2Nat.id by lia. reflexivity.
    + rewrite app_length. cbn [length]. lia.
Qed.

(** The pieces are short enough not to be cut again. *)
Lemma divided_short size m1 a b pa pb ids x : (0 < size)%Q -> divided m1 a b pa pb ids -> nearest size pa pb (length ids) -> In x ids ->
  exists c d pc pd, beam m1 x c d /\ t_get (m_nodes m1) c = Ok pc /\ t_get (m_nodes m1) d = Ok pd /\ short size (vsub pd pc).
Proof.
  intros Hs (l & Hl & _ & _ & Hb & Hat) (Hn1 & Hn & _) Hx. apply (In_nth _ _ 0) in Hx. destruct Hx as (i & Hi & <-).
  destruct (Hat i ltac:(lia)) as (pc & Hc & Ec). destruct (Hat (S i) ltac:(lia)) as (pd & Hd & Ed).
  exists (nth i l 0), (nth (S i) l 0), pc, pd. split; [now apply Hb|]. split; [exact Hc|]. split; [exact Hd|].
  set (n := length ids) in *. clearbody n. unfold short.
  assert (Zn : (1 <= inject_Z (Z.of_nat n))%Q) by (change 1%Q with (inject_Z 1); rewrite <- Zle_Qle; lia).
  assert (NZ : ~ (inject_Z (Z.of_nat n) == 0)%Q) by lra.
  assert (E : (norm2 (vsub pd pc) * (inject_Z (Z.of_nat n) * inject_Z (Z.of_nat n)) == norm2 (vsub pb pa))%Q).
  { rewrite Ec, Ed. replace (Z.of_nat (S i)) with (Z.of_nat i + 1) by lia. rewrite inject_Z_plus.
    unfold norm2, dot, vsub, vadd, vscale. cbn [cx cy cz]. change (inject_Z 1) with 1%Q. field. exact NZ. }
  set (N := inject_Z (Z.of_nat n)) in *. set (A := norm2 (vsub pd pc)) in *. rewrite <- E in Hn. clearbody N A. clear E Ec Ed.
  assert (Hss : (0 < size * size)%Q) by (apply Qmult_lt_0_compat; assumption).
  assert (NN : (0 < N * N)%Q) by (apply Qmult_lt_0_compat; lra).
  apply (Qmult_lt_r _ _ (N * N)%Q NN).
  apply Qlt_le_trans with (4 * ((N + (1 # 2)) * size * ((N + (1 # 2)) * size)))%Q; [lra|].
  assert (P : (4 * ((N + (1 # 2)) * (N + (1 # 2))) <= 9 * (N * N))%Q) by nra.
  apply Qle_trans with ((4 * ((N + (1 # 2)) * (N + (1 # 2)))) * (size * size))%Q; [apply Qle_lteq; right; ring|].
  apply Qle_trans with ((9 * (N * N)) * (size * size))%Q; [apply Qmult_le_compat_r; [exact P|lra]|apply Qle_lteq; right; ring].
Qed.

Lemma divided_kept m1 m2 a b pa pb ids : divided m1 a b pa pb ids -> (forall n c, t_get (m_nodes m1) n = Ok c -> t_get (m_nodes m2) n = Ok c) ->
  (forall x, In x ids -> t_get (m_elems m2) x = t_get (m_elems m1) x) -> divided m2 a b pa pb ids.
Proof.
  intros (l & Hl & H0 & H1 & Hb & Hat) Hn He. exists l. repeat (split; [assumption|]). split.
  - intros i Hi. destruct (Hb i Hi) as [fs Hf]. exists fs. rewrite He; [exact Hf|now apply nth_In].
  - intros i Hi. destruct (Hat i Hi) as (c & Hc & Ec). exists c. split; [now apply Hn|exact Ec].
Qed.

(** ** All beams *)
Section Beams.
Variable size : Q.
Hypothesis Hs : (0 < size)%Q.
Variable m : mesh.
Hypothesis Wm : wf_mesh m.
Hypothesis Rm : refs_ok m.
Hypothesis Bm : all_beams m.

(** [ids] are the parts of the beam [id]. *)
Definition parts_of (m1 : mesh) (id : Z) (ids : list Z) : Prop := exists a b pa pb ks, beam m id a b /\ t_get (m_nodes m) a = Ok pa /\ t_get (m_nodes m) b = Ok pb /\
  ids = ks ++ [id] /\ divided m1 a b pa pb ids /\ nearest size pa pb (length ids).

Record cutting_beams (done rest : list Z) (m1 : mesh) : Prop := CuttingBeams {
  cb_wf : wf_mesh m1;
  cb_faces : m_faces m1 = m_faces m;
  cb_ids : exists ks, t_ids (m_elems m1) = t_ids (m_elems m) ++ ks;
  cb_nodes : forall n c, t_get (m_nodes m) n = Ok c -> t_get (m_nodes m1) n = Ok c;
  cb_count : t_size (m_nodes m1) - t_size (m_elems m1) = t_size (m_nodes m) - t_size (m_elems m);
  cb_todo : forall id, In id rest -> t_get (m_elems m1) id = t_get (m_elems m) id;
  cb_parts : exists lists, Forall2 (parts_of m1) done lists /\ Permutation (t_ids (m_elems m1)) (concat lists ++ rest)
}.

Lemma cutting_beams_start : cutting_beams [] (t_ids (m_elems m)) m.
Proof.
  constructor; auto.
  - exists []. now rewrite app_nil_r.
  - exists []. split; [constructor|reflexivity].
Qed.

Lemma beam_ends id : In id (t_ids (m_elems m)) -> exists a b pa pb, beam m id a b /\ t_get (m_nodes m) a = Ok pa /\ t_get (m_nodes m) b = Ok pb.
Proof.
  intros Hid. destruct (Bm id Hid) as (a & b & [fs Hb]). pose proof (proj1 Rm _ _ Hb) as Fa. cbn [e_nodes] in Fa. rewrite Forall_forall in Fa.
  destruct (wf_get (m_nodes m) a (proj1 Wm)) as [pa Pa]; [apply Fa; cbn; auto|]. destruct (wf_get (m_nodes m) b (proj1 Wm)) as [pb Pb]; [apply Fa; cbn; auto|].
  exists a, b, pa, pb. split; [now exists fs|]. auto.
Qed.

Lemma beam_step done id rest m1 : t_ids (m_elems m) = done ++ id :: rest -> cutting_beams done (id :: rest) m1 ->
  exists m2, (forall total flags, resize_step size total (m1, flags) id = Ok (m2, flags)) /\ cutting_beams (done ++ [id]) rest m2.
Proof.
  intros El C. destruct C as [C1 C2 (k0 & C3) C4 C5 C6 (lists & F2 & Pe)].
  assert (Hid : In id (t_ids (m_elems m))) by (rewrite El; apply in_elt).
  destruct (beam_ends id Hid) as (a & b & pa & pb & [fs Hb] & Pa & Pb).
  pose proof (C6 id (or_introl eq_refl)) as He. rewrite Hb in He.
  destruct (pieces_spec size (vsub pb pa) Hs) as (k & Ek & _).
  destruct (cut_beam_ok size m1 id _ a b pa pb k Hs C1 He eq_refl eq_refl (C4 _ _ Pa) (C4 _ _ Pb) Ek) as (m2 & ks & E2 & W2 & F & I2 & Sz & _ & Nd & Oth & Dv & Len).
  exists m2. split. { intros total flags. unfold resize_step. cbn [fst snd]. rewrite He. cbn [bind e_type]. rewrite E2. reflexivity. }
  assert (Nd1 : NoDup (concat lists ++ id :: rest)) by (eapply Permutation_NoDup; [exact Pe|apply C1]).
  assert (Hother : forall x, In x (concat lists) \/ In x rest -> x <> id /\ In x (t_ids (m_elems m1))).
  { intros x Hx. split.
    - intros ->. apply NoDup_remove_2 in Nd1. apply Nd1. apply in_app_iff. exact Hx.
    - apply (Permutation_in x (Permutation_sym Pe)). apply in_app_iff. destruct Hx; [now left|right; now right]. }
  constructor; auto.
  - congruence.
  - exists (k0 ++ ks). now rewrite I2, C3, app_assoc.
  - unfold t_size, zlen in *. rewrite I2, app_length. lia.
  - intros x Hx. destruct (Hother x (or_intror Hx)) as [A B]. rewrite (Oth x A B). apply C6. now right.
  - exists (lists ++ [ks ++ [id]]). split.
    + apply Forall2_app.
      * assert (G : forall l1 l2, Forall2 (parts_of m1) l1 l2 -> (forall x, In x (concat l2) -> In x (concat lists)) -> Forall2 (parts_of m2) l1 l2).
        { induction 1 as [|y ys l1 l2 Hy Hl IH]; intros Hin; [constructor|]. constructor.
          - destruct Hy as (a' & b' & pa' & pb' & ks' & Q1 & Q2 & Q3 & Q4 & Q5 & Q6). exists a', b', pa', pb', ks'. repeat (split; [assumption|]). split; [|exact Q6].
            apply (divided_kept m1 m2); [exact Q5|exact Nd|]. intros x Hx. destruct (Hother x) as [A B]; [left; apply Hin; cbn [concat]; apply in_app_iff; now left|]. now apply Oth.
          - apply IH. intros x Hx. apply Hin. cbn [concat]. apply in_app_iff. now right. }
        apply G; [exact F2|auto].
      * constructor; [|constructor]. exists a, b, pa, pb, ks. split; [now exists fs|]. repeat (split; [assumption||reflexivity|]). rewrite Len. now apply nearest_pieces.
    + rewrite I2, concat_app. cbn [concat]. rewrite app_nil_r. rewrite Pe. rewrite <- !app_assoc. apply Permutation_app_head. cbn [app].
      apply (Permutation_app_comm (id :: rest) ks).
Qed.

Lemma beams_done rest : forall done m1, t_ids (m_elems m) = done ++ rest -> cutting_beams done rest m1 ->
  exists m2, (forall turns total flags, (length rest <= turns)%nat ->
      resize_loop turns size total (zlen done) (m1, flags) = resize_loop (turns - length rest) size total (t_size (m_elems m)) (m2, flags)) /\
    cutting_beams (t_ids (m_elems m)) [] m2.
Proof.
  induction rest as [|id rest IH]; intros done m1 El C.
  - exists m1. rewrite app_nil_r in El. unfold t_size. rewrite El in *. split; [|exact C]. intros turns total flags _. cbn [length]. now rewrite Nat.sub_0_r.
  - destruct (beam_step done id rest m1 El C) as (m2 & E2 & C2).
    destruct (IH (done ++ [id]) m2) as (m3 & E3 & C3); [rewrite <- app_assoc; exact El|exact C2|].
    exists m3. split; [|exact C3]. intros turns total flags Ht. destruct turns as [|turns]; [cbn in Ht; lia|].
    change (S turns - length (id :: rest))%nat with (turns - length rest)%nat. rewrite <- E3 by (cbn in Ht; lia). cbn [resize_loop fst].
    destruct (cb_ids _ _ _ C) as [ks Hks]. assert (Ln : (length done < length (t_ids (m_elems m1)))%nat) by (rewrite Hks, El, !app_length; cbn; lia).
    destruct (Z.ltb_spec (zlen done) (t_size (m_elems m1))) as [_|H]; [|unfold t_size, zlen in H; lia].
    unfold t_id, vec_at. destruct (Z.ltb_spec (zlen done) 0) as [H|_]; [unfold zlen in H; lia|].
    assert (En : nth_error (t_ids (m_elems m1)) (Z.to_nat (zlen done)) = Some id).
    { unfold zlen. rewrite Nat2Z.id, Hks, El, <- app_assoc. cbn [app]. rewrite nth_error_app2 by lia. now rewrite Nat.sub_diag. }
    rewrite En. cbn [bind]. rewrite E2. cbn [bind]. f_equal. unfold zlen. rewrite app_length. cbn [length]. lia.
Qed.

Lemma in_lists m1 lists x : Forall2 (parts_of m1) (t_ids (m_elems m)) lists -> In x (concat lists) -> exists id ids, In id (t_ids (m_elems m)) /\ parts_of m1 id ids /\ In x ids.
Proof.
  induction 1 as [|y ys l1 l2 Hy Hl IH]; cbn [concat]; [intros []|]. intros Hx. apply in_app_iff in Hx. destruct Hx as [Hx|Hx].
  - exists y, ys. split; [now left|]. auto.
  - destruct (IH Hx) as (id & ids & A & B). exists id, ids. split; [now right|exact B].
Qed.

Lemma beams_rest m1 total flags : cutting_beams (t_ids (m_elems m)) [] m1 -> forall turns i, 0 <= i -> t_size (m_elems m1) - i <= Z.of_nat turns ->
  resize_loop turns size total i (m1, flags) = Ok (Some (m1, flags)).
Proof.
  intros C. destruct C as [C1 C2 C3 C4 C5 C6 (lists & F2 & Pe)]. rewrite app_nil_r in Pe.
  induction turns as [|turns IH]; intros i Hi Ht; cbn [resize_loop fst]; destruct (Z.ltb_spec i (t_size (m_elems m1))) as [Hlt|Hge]; try reflexivity; [lia|].
  destruct (nth_error (t_ids (m_elems m1)) (Z.to_nat i)) as [id|] eqn:En.
  2:{ apply nth_error_None in En. unfold t_size, zlen in Hlt. lia. }
  unfold t_id, vec_at. destruct (Z.ltb_spec i 0); [lia|]. rewrite En. cbn [bind].
  assert (Hin : In id (concat lists)) by (apply (Permutation_in id Pe); exact (nth_error_In _ _ En)).
  destruct (in_lists m1 lists id F2 Hin) as (y & ids & _ & (a & b & pa & pb & ks & _ & _ & _ & _ & Dv & Nr) & Hx).
  destruct (divided_short size m1 a b pa pb ids id Hs Dv Nr Hx) as (c & d & pc & pd & [fs Hb] & Pc & Pd & Sh).
  unfold resize_step. cbn [fst snd]. rewrite Hb. cbn [bind e_type].
  destruct (pieces_spec size (vsub pd pc) Hs) as (k & Ek & _). pose proof (short_one size _ k Hs Sh Ek) as K1.
  destruct (cut_beam_ok size m1 id _ c d pc pd k Hs C1 Hb eq_refl eq_refl Pc Pd Ek) as (m2 & ks2 & E2 & _ & _ & _ & _ & Same & _). rewrite (Same K1) in E2.
  rewrite E2. cbn [bind]. apply IH; lia.
Qed.

Lemma beam_spread m1 a b pa pb ids : divided m1 a b pa pb ids -> (1 <= length ids)%nat -> t_get (m_nodes m1) a = Ok pa -> t_get (m_nodes m1) b = Ok pb -> ~ pa =v= pb -> spread m1.
Proof.
  intros (l & Hl & H0 & H1 & Hb & Hat) Hn Pa Pb Hne.
  destruct (Hb 0%nat ltac:(lia)) as [f1 B1]. destruct (Hb (length ids - 1)%nat ltac:(lia)) as [f2 B2]. rewrite H0 in B1.
  replace (S (length ids - 1)) with (length ids) in B2 by lia. rewrite H1 in B2.
  assert (M : forall c, mean [c] =v= c). { intros c. unfold mean, veq, vscale, vadd, vzero. cbn. split; [field|split; field]. }
  exists (nth 0 ids 0), (Element ET_BEAM [a; nth 1 l 0] f1), [Face FT_POINT [a] false 0 0; Face FT_POINT [nth 1 l 0] false 0 0], (Face FT_POINT [a] false 0 0), (mean [pa]),
    (nth (length ids - 1) ids 0), (Element ET_BEAM [nth (length ids - 1) l 0; b] f2), [Face FT_POINT [nth (length ids - 1) l 0] false 0 0; Face FT_POINT [b] false 0 0], (Face FT_POINT [b] false 0 0), (mean [pb]).
  split; [|split].
  - split; [exact B1|]. split; [reflexivity|]. split; [now left|]. exists [pa]. cbn [f_nodes]. unfold coords. cbn [map]. rewrite Pa. auto.
  - split; [exact B2|]. split; [reflexivity|]. split; [right; now left|]. exists [pb]. cbn [f_nodes]. unfold coords. cbn [map]. rewrite Pb. auto.
  - intros E. apply Hne. rewrite <- (M pa), <- (M pb). exact E.
Qed.

(** The whole of it. *)
Lemma remesh_beams n tol : 1 <= n <= int_max -> (0 <= tol)%Q -> (exists id a b pa pb, beam m id a b /\ t_get (m_nodes m) a = Ok pa /\ t_get (m_nodes m) b = Ok pb /\ ~ pa =v= pb) ->
  exists m', (forall turns, t_size (m_elems m') <= Z.of_nat turns -> remesh turns n size tol m = Ok (Some m')) /\ wf_mesh m' /\ refs_ok m' /\
    (forall k c, t_get (m_nodes m) k = Ok c -> t_get (m_nodes m') k = Ok c) /\ t_size (m_nodes m') - t_size (m_elems m') = t_size (m_nodes m) - t_size (m_elems m) /\
    exists lists, Forall2 (parts_of m') (t_ids (m_elems m)) lists /\ Permutation (t_ids (m_elems m')) (concat lists).
Proof.
  intros Hn Ht (i0 & a & b & pa & pb & B0 & Pa & Pb & Hne).
  destruct (beams_done (t_ids (m_elems m)) [] m eq_refl cutting_beams_start) as (m1 & E1 & C).
  assert (Loop : forall turns, t_size (m_elems m1) <= Z.of_nat turns -> resize_loop turns size (t_size (m_elems m)) 0 (m, []) = Ok (Some (m1, []))).
  { intros turns Htu. destruct (cb_ids _ _ _ C) as [k0 Hk0].
    assert (Ln : (length (t_ids (m_elems m)) <= turns)%nat) by (unfold t_size, zlen in Htu; rewrite Hk0, app_length in Htu; lia).
    specialize (E1 turns (t_size (m_elems m)) [] Ln). change (zlen (@nil Z)) with 0 in E1. rewrite E1.
    apply (beams_rest m1 (t_size (m_elems m)) [] C); unfold t_size, zlen in *; lia. }
  destruct C as [C1 C2 C3 C4 C5 C6 (lists & F2 & Pe)]. rewrite app_nil_r in Pe.
  assert (In1 : forall x, In x (t_ids (m_elems m1)) -> exists c d pc pd, beam m1 x c d /\ t_get (m_nodes m1) c = Ok pc /\ t_get (m_nodes m1) d = Ok pd).
  { intros x Hx. apply (Permutation_in x Pe) in Hx. destruct (in_lists m1 lists x F2 Hx) as (y & ids & _ & (a' & b' & pa' & pb' & ks & _ & _ & _ & _ & Dv & Nr) & Hx').
    destruct (divided_short size m1 a' b' pa' pb' ids x Hs Dv Nr Hx') as (c & d & pc & pd & Hb & Pc & Pd & _). exists c, d, pc, pd. auto. }
  assert (Bm1 : forall x e, t_get (m_elems m1) x = Ok e -> e_type e = ET_BEAM /\ exists c d pc pd, e_nodes e = [c; d] /\ t_get (m_nodes m1) c = Ok pc /\ t_get (m_nodes m1) d = Ok pd).
  { intros x e He. destruct (In1 x (wf_get_in _ _ _ (proj2 (proj2 C1)) He)) as (c & d & pc & pd & [fs Hb] & Pc & Pd). rewrite Hb in He. injection He as <-.
    split; [reflexivity|]. exists c, d, pc, pd. auto. }
  assert (R1 : refs_ok m1).
  { split.
    - intros x e He. destruct (Bm1 x e He) as (_ & c & d & pc & pd & En & Pc & Pd). rewrite En. apply Forall_cons; [exact (wf_get_in _ _ _ (proj1 C1) Pc)|].
      apply Forall_cons; [exact (wf_get_in _ _ _ (proj1 C1) Pd)|apply Forall_nil].
    - intros fid f Hf. rewrite C2 in Hf. apply (proj2 Rm) in Hf. eapply Forall_impl; [|exact Hf]. intros k Hk. destruct (wf_get _ _ (proj1 Wm) Hk) as [c Hc].
      exact (wf_get_in _ _ _ (proj1 C1) (C4 _ _ Hc)). }
  assert (En1 : enough m1) by (intros x e He; destruct (Bm1 x e He) as (Ty & c & d & pc & pd & En & _); rewrite Ty, En; cbn; lia).
  assert (Sp : spread m1).
  { destruct B0 as [f0 B0]. pose proof (wf_get_in _ _ _ (proj2 (proj2 Wm)) B0) as Hin.
    assert (X : exists ids, parts_of m1 i0 ids).
    { clear - F2 Hin. induction F2 as [|y ys l1 l2 Hy Hl IH]; [destruct Hin|]. destruct Hin as [->|Hin]; [eauto|auto]. }
    destruct X as (ids & a' & b' & pa' & pb' & ks & [f1 B1] & Pa' & Pb' & Ei & Dv & Nr). rewrite B0 in B1. injection B1 as <- <- _.
    assert (pa' = pa) by congruence. assert (pb' = pb) by congruence. subst pa' pb'.
    apply (beam_spread m1 a b pa pb ids Dv); [apply Nr|auto|auto|exact Hne]. }
  destruct (pairing_ok n tol m1 Hn Ht C1 R1 En1 Sp) as (m' & nb & E & Enn & W' & R' & Ei & Hel & _).
  exists m'. split.
  { intros turns Htu. unfold remesh. rewrite Loop; [|unfold t_size in *; rewrite Ei in Htu; exact Htu]. cbn [bind fst]. rewrite E. reflexivity. }
  split; [exact W'|]. split; [exact R'|]. split; [intros k c Hc; rewrite Enn; auto|]. split; [unfold t_size in *; rewrite Ei, Enn; exact C5|].
  exists lists. split; [|rewrite Ei; exact Pe].
  assert (Bk : forall x c d, beam m1 x c d -> beam m' x c d).
  { intros x c d [fs Hb]. destruct (Hel x _ Hb) as (e' & fs' & He' & T & N & _). exists (e_faces e'). rewrite He'. destruct e'. cbn in *. congruence. }
  assert (Im : forall (P P' : Z -> list Z -> Prop) l1 l2, (forall x y, P x y -> P' x y) -> Forall2 P l1 l2 -> Forall2 P' l1 l2) by (intros P P' l1 l2 H; induction 1; constructor; auto).
  eapply Im; [|exact F2]. intros y ids (a' & b' & pa' & pb' & ks & Q1 & Q2 & Q3 & Q4 & (l & D1 & D2 & D3 & D4 & D5) & Q6).
  exists a', b', pa', pb', ks. repeat (split; [assumption|]). split; [|exact Q6]. exists l. repeat (split; [assumption|]). split; [intros i Hi; apply Bk; auto|].
  intros i Hi. destruct (D5 i Hi) as (c & Hc & Ec). exists c. rewrite Enn. auto.
Qed.
End Beams.

(** Beams that are short already. *)
Lemma beams_still size m1 total flags : (0 < size)%Q -> wf_mesh m1 ->
  (forall x, In x (t_ids (m_elems m1)) -> exists c d pc pd, beam m1 x c d /\ t_get (m_nodes m1) c = Ok pc /\ t_get (m_nodes m1) d = Ok pd /\ short size (vsub pd pc)) ->
  forall turns i, 0 <= i -> resize_loop turns size total i (m1, flags) = Ok (Some (m1, flags)) \/ resize_loop turns size total i (m1, flags) = Ok None.
Proof.
  intros Hs C1 Hall. induction turns as [|turns IH]; intros i Hi; cbn [resize_loop fst]; destruct (Z.ltb_spec i (t_size (m_elems m1))) as [Hlt|Hge]; auto.
  destruct (nth_error (t_ids (m_elems m1)) (Z.to_nat i)) as [id|] eqn:En.
  2:{ apply nth_error_None in En. unfold t_size, zlen in Hlt. lia. }
  unfold t_id, vec_at. destruct (Z.ltb_spec i 0); [lia|]. rewrite En. cbn [bind].
  destruct (Hall id (nth_error_In _ _ En)) as (c & d & pc & pd & [fs Hb] & Pc & Pd & Sh).
  unfold resize_step. cbn [fst snd]. rewrite Hb. cbn [bind e_type].
  destruct (pieces_spec size (vsub pd pc) Hs) as (k & Ek & _). pose proof (short_one size _ k Hs Sh Ek) as K1.
  destruct (cut_beam_ok size m1 id _ c d pc pd k Hs C1 Hb eq_refl eq_refl Pc Pd Ek) as (m2 & ks2 & E2 & _ & _ & _ & _ & Same & _). rewrite (Same K1) in E2.
  rewrite E2. cbn [bind]. apply IH. lia.
Qed.

Lemma divided_one m id a b pa pb : beam m id a b -> t_get (m_nodes m) a = Ok pa -> t_get (m_nodes m) b = Ok pb -> divided m a b pa pb [id].
Proof.
  intros B Ha Hb. exists [a; b]. cbn [length]. split; [reflexivity|]. split; [reflexivity|]. split; [reflexivity|]. split.
  - intros i Hi. assert (i = 0%nat) by lia. subst i. exact B.
  - intros i Hi. destruct i as [|[|]]; [| |lia]; cbn [nth]; [exists pa|exists pb]; (split; [assumption|]);
      unfold veq, vadd, vscale, vsub; cbn [cx cy cz]; split; [field|split; field| field | split; field].
Qed.

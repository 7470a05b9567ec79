(** C33, second part: cutting a polyhedron at a given fraction of its volume. *)
From Coq Require Import QArith Qabs ZArith List Bool Lia Lqa.
From Verif Require Import Prelude Vec ZMap Seg_Model Box_Model Poly_Model Poly_Spec Cell_Model Poly_Props Frac_Model.
Import ListNotations.
Open Scope Q_scope.

Lemma Qlt_bool_false a b : Qlt_bool a b = false -> b <= a.
Proof. intros H. destruct (Qlt_le_dec a b) as [X|X]; [|exact X]. apply Qlt_bool_iff in X. congruence. Qed.
Lemma Qle_bool_false a b : Qle_bool a b = false -> b < a.
Proof. intros H. destruct (Qlt_le_dec b a) as [X|X]; [exact X|]. apply Qle_bool_iff in X. congruence. Qed.

(** ** The interval *)
Definition within (lo hi x : Q) : Prop := lo <= x <= hi.

Lemma next_within lo hi tol k : within lo hi (k_a k) -> within lo hi (k_b k) -> within lo hi (fst (frac_next tol k)).
Proof.
  unfold within, frac_next. destruct k as [a b e f fa fb fc mid]. cbn [k_a k_b]. intros [A1 A2] [B1 B2]. cbv zeta. set (s := frac_guess _). set (tmp := (3 * a + b) / 4).
  assert (T : tmp == (3 # 4) * a + (1 # 4) * b) by (unfold tmp; field).
  destruct ((Qlt_bool tmp s && Qlt_bool s b) || (Qlt_bool s tmp && Qlt_bool b s)) eqn:E; cbn [negb orb].
  - destruct (_ || _ || _ || _); cbn [fst]; [lra|]. apply orb_true_iff in E. rewrite !andb_true_iff, !Qlt_bool_iff in E. destruct E as [[X Y]|[X Y]]; lra.
  - cbn [fst]. lra.
Qed.

Lemma signs fa fb fs : 0 <= fa * fs -> fa * fb < 0 -> ~ fs == 0 -> fs * fb < 0.
Proof.
  intros H1 H2 N. destruct (Qlt_le_dec (fs * fb) 0) as [X|X]; [exact X|exfalso].
  assert (Na : ~ fa == 0) by (intros A; rewrite A in H2; lra). assert (Nb : ~ fb == 0) by (intros A; rewrite A in H2; lra).
  assert (P : 0 < fs * fb) by (apply Qle_lteq in X; destruct X as [X|X]; [exact X|]; symmetry in X; apply Qmult_integral in X; tauto).
  assert (S : 0 < fa * fa) by (destruct (Qlt_le_dec fa 0) as [Y|Y]; [nra|]; apply Qle_lteq in Y; destruct Y as [Y|Y]; [nra|symmetry in Y; contradiction]).
  assert (E : fa * fa * (fs * fb) == fa * fs * (fa * fb)) by ring. assert (0 < fa * fa * (fs * fb)) by nra. nra.
Qed.

Lemma update_cases k s fs mid : let k' := frac_update k s fs mid in
  (k_a k' = k_a k \/ k_a k' = k_b k \/ k_a k' = s) /\ (k_b k' = k_a k \/ k_b k' = k_b k \/ k_b k' = s) /\
  (fs = k_fa k' \/ fs = k_fb k') /\ (k_fa k * k_fb k < 0 -> k_fa k' * k_fb k' < 0 \/ (k_fb k' == 0 /\ fs == 0)).
Proof.
  destruct k as [a b e f fa fb fc m]. unfold frac_update. cbn [k_a k_b k_fa k_fb].
  destruct (Qlt_bool (fa * fs) 0) eqn:E1.
  - apply Qlt_bool_iff in E1. destruct (Qlt_bool (Qabs fa) (Qabs fs)) eqn:E2; cbn; (split; [tauto|]); (split; [tauto|]); (split; [tauto|]); intros _; left; lra.
  - apply Qlt_bool_false in E1. destruct (Qlt_bool (Qabs fs) (Qabs fb)) eqn:E2; cbn; (split; [tauto|]); (split; [tauto|]); (split; [tauto|]); intros H.
    + destruct (Qeq_dec fs 0) as [Z0|Z0]; [right; split; exact Z0|]. left. rewrite Qmult_comm. now apply (signs fa fb fs).
    + apply Qlt_bool_false in E2. destruct (Qeq_dec fs 0) as [Z0|Z0].
      * exfalso. rewrite Z0 in E2. assert (B : fb == 0) by (change (Qabs 0) with 0 in E2; apply Qabs_Qle_condition in E2; lra). rewrite B in H. lra.
      * left. now apply (signs fa fb fs).
Qed.

Lemma range_ok p n lo hi : flat_map snd (ph_map p) <> [] -> (forall v, In v (flat_map snd (ph_map p)) -> - real_max <= dot v n <= real_max) ->
  (forall v, In v (flat_map snd (ph_map p)) -> lo <= dot v n <= hi) -> within lo hi (fst (frac_range p n)) /\ within lo hi (snd (frac_range p n)).
Proof.
  unfold frac_range. generalize (flat_map snd (ph_map p)). intros l Hne Hmax Hl.
  assert (G : forall l ab, within lo hi (fst ab) -> within lo hi (snd ab) -> (forall v, In v l -> lo <= dot v n <= hi) ->
     let r := fold_left (fun ab v => (qmin (fst ab) (dot v n), qmax (snd ab) (dot v n))) l ab in within lo hi (fst r) /\ within lo hi (snd r)).
  { clear. induction l as [|v l IH]; intros ab H1 H2 Hl; [cbn; auto|]. cbn [fold_left]. apply IH; cbn [fst snd].
    - pose proof (Hl v (or_introl eq_refl)). unfold qmin, within in *. destruct (Qlt_bool _ _); lra.
    - pose proof (Hl v (or_introl eq_refl)). unfold qmax, within in *. destruct (Qlt_bool _ _); lra.
    - intros u Hu. apply Hl. now right. }
  destruct l as [|v l]; [contradiction|]. cbn [fold_left fst snd]. pose proof (Hl v (or_introl eq_refl)) as Hv. pose proof (Hmax v (or_introl eq_refl)) as Hm.
  apply G; cbn [fst snd].
  - unfold qmin, within. destruct (Qlt_bool (dot v n) real_max) eqn:E; [lra|]. apply Qlt_bool_false in E. lra.
  - unfold qmax, within. destruct (Qlt_bool (- real_max) (dot v n)) eqn:E; [lra|]. apply Qlt_bool_false in E. lra.
  - intros u Hu. apply Hl. now right.
Qed.

Lemma clip_newp p np np' newid h tol : fst (ph_clip p np newid h tol) = fst (ph_clip p np' newid h tol).
Proof. unfold ph_clip, ph_close. cbv zeta. destruct (Nat.ltb _ _); reflexivity. Qed.

(** ** The loop *)
Section Loop.
Variables (p : polyhedron) (newid : Z) (req tol vt : Q) (nmax : Z) (n : coord) (lo hi : Q).
Hypothesis (Htol : 0 <= tol).
(** The last cut is [c]; its value is one of the two at the ends of the interval. *)
Definition looking (k : bracket) (c : cutting) : Prop :=
  within lo hi (k_a k) /\ within lo hi (k_b k) /\ within lo hi (p_d (c_plane c)) /\ p_normal (c_plane c) = n /\
  c_part c = fst (ph_clip p [] newid (c_plane c) tol) /\ c_vs c = ph_volume (c_part c) /\
  (c_vs c / vt - req == k_fa k \/ c_vs c / vt - req == k_fb k) /\
  (k_fa k * k_fb k < 0 \/ (k_fb k == 0 /\ c_vs c / vt - req == 0)).

Lemma looking_step k np h0 : within lo hi (k_a k) -> within lo hi (k_b k) -> p_normal h0 = n -> k_fa k * k_fb k < 0 ->
  let '(s, mid) := frac_next tol k in let h := Plane (p_normal h0) s in let '(part, newp) := ph_clip p np newid h tol in
  looking (frac_update k s (ph_volume part / vt - req) mid) (Cutting part newp h (ph_volume part)).
Proof.
  intros Ha Hb Hn Hs. pose proof (next_within lo hi tol k Ha Hb) as W. destruct (frac_next tol k) as [s mid]. cbn [fst] in W. cbv zeta.
  destruct (ph_clip p np newid (Plane (p_normal h0) s) tol) as [part newp] eqn:E.
  destruct (update_cases k s (ph_volume part / vt - req) mid) as (A & B & C & D). unfold looking. cbn [c_plane c_part c_vs p_d p_normal].
  split; [destruct A as [-> |[-> | ->]]; assumption|]. split; [destruct B as [-> |[-> | ->]]; assumption|]. split; [exact W|]. split; [exact Hn|].
  split; [rewrite (clip_newp p [] np), E; reflexivity|]. split; [reflexivity|]. split; [destruct C as [<- | <-]; [left|right]; reflexivity|].
  destruct (D Hs) as [X|[X Y]]; [left; exact X|right; split; [exact X|exact Y]].
Qed.

Lemma looking_loop fuel : forall i k c, looking k c -> let r := frac_loop p newid req tol vt nmax fuel i k c in
  (exists k', looking k' (fst r)) /\ (snd r = nmax \/ (i + 1 <= snd r <= i + Z.of_nat fuel)%Z) /\
  (snd r <> nmax -> Qabs (c_vs (fst r) / vt - req) <= tol).
Proof.
  induction fuel as [|fuel IH]; intros i k c L; cbn [frac_loop].
  - cbn [fst snd]. split; [eauto|]. split; [left; reflexivity|]. intros C. now destruct C.
  - destruct (Qeq_bool (k_fb k) 0 || Qle_bool (Qabs (k_fa k - k_fb k)) tol) eqn:E.
    + cbn [fst snd]. split; [eauto|]. split; [right; lia|]. intros _. destruct L as (_ & _ & _ & _ & _ & _ & V & S).
      apply orb_true_iff in E. destruct S as [S|[S1 S2]].
      * destruct E as [E|E]; [apply Qeq_bool_eq in E; rewrite E in S; lra|]. apply Qle_bool_iff in E. apply Qabs_Qle_condition in E. apply Qabs_Qle_condition.
        assert ((0 < k_fa k /\ k_fb k < 0) \/ (k_fa k < 0 /\ 0 < k_fb k)) as [[X Y]|[X Y]].
        { destruct (Qlt_le_dec (k_fa k) 0) as [X|X].
          - right. split; [exact X|]. destruct (Qlt_le_dec 0 (k_fb k)) as [Y|Y]; [exact Y|]. exfalso. nra.
          - apply Qle_lteq in X. destruct X as [X|X]; [|rewrite <- X in S; lra]. left. split; [exact X|]. destruct (Qlt_le_dec (k_fb k) 0) as [Y|Y]; [exact Y|]. exfalso. nra. }
        all: destruct V as [V|V]; rewrite V; lra.
      * rewrite S2. exact Htol.
    + apply orb_false_iff in E. destruct E as [E1 _]. destruct L as (A & B & _ & Hn & _ & _ & _ & S).
      assert (S' : k_fa k * k_fb k < 0) by (destruct S as [S|[S _]]; [exact S|]; rewrite Qeq_eq_bool in E1 by exact S; discriminate).
      pose proof (looking_step k (c_newp c) (c_plane c) A B Hn S') as L'. destruct (frac_next tol k) as [s mid]. cbv zeta in *. destruct (ph_clip p (c_newp c) newid _ tol) as [part newp].
      destruct (IH (i + 1)%Z _ _ L') as (X & Y & Z0). split; [exact X|]. split; [destruct Y as [Y|Y]; [left; exact Y|right; lia]|exact Z0].
Qed.
End Loop.

(** ** The claims *)
(** The clip at a fraction between 0 and 1 returns the part below a plane with the given normal, which lies between the lowest and the highest vertex and is what
    becomes of the plane; the fraction it reports is that of the volume of the part; and if it stops early this is the fraction asked for up to the tolerance.
    (The vertices are below the largest number along the normal.) *)
Theorem C33_fraction_clip : forall p newp newid h req nmax tol lo hi, 0 < req < 1 -> 0 <= tol < 1 -> (1 <= nmax)%Z -> flat_map snd (ph_map p) <> [] ->
  (forall v, In v (flat_map snd (ph_map p)) -> - real_max <= dot v (p_normal h) <= real_max) ->
  (forall v, In v (flat_map snd (ph_map p)) -> lo <= dot v (p_normal h) <= hi) ->
  let r := ph_frac_clip p newp newid h req nmax tol in
  exists d, lo <= d <= hi /\ r_plane r = Plane (p_normal h) d /\ r_part r = fst (ph_clip p [] newid (Plane (p_normal h) d) tol) /\
    r_act r = ph_volume (r_part r) / ph_volume p /\ (1 <= r_iterations r <= nmax)%Z /\
    ((r_iterations r < nmax)%Z -> Qabs (r_act r - req) <= tol).
Proof.
  intros p newp newid h req nmax tol lo hi Hr Ht Hn Hne Hmax Hv r. unfold r, ph_frac_clip.
  destruct (Qle_bool req 0) eqn:E1; [apply Qle_bool_iff in E1; lra|]. destruct (Qle_bool 1 req) eqn:E2; [apply Qle_bool_iff in E2; lra|].
  destruct (range_ok p (p_normal h) lo hi Hne Hmax Hv) as [Wa Wb]. destruct (frac_range p (p_normal h)) as [a b]. cbn [fst snd] in Wa, Wb. cbv zeta.
  destruct (Z.to_nat nmax) as [|fuel] eqn:Ef; [lia|]. cbn [frac_loop k_fa k_fb].
  destruct (Qeq_bool (1 - req) 0 || Qle_bool (Qabs (0 - req - (1 - req))) tol) eqn:E3.
  { exfalso. apply orb_true_iff in E3. destruct E3 as [E3|E3]; [apply Qeq_bool_eq in E3; lra|]. apply Qle_bool_iff in E3.
    assert (X : 0 - req - (1 - req) == - (1)) by ring. rewrite X in E3. change (Qabs (- (1))) with 1 in E3. lra. }
  pose proof (looking_step p newid req tol (ph_volume p) (p_normal h) lo hi (Bracket a b a real_max (0 - req) (1 - req) (0 - req) true) newp h Wa Wb eq_refl) as L.
  cbn [k_fa k_fb] in L. specialize (L ltac:(nra)). cbn [c_plane c_newp]. destruct (frac_next tol _) as [s mid]. cbv zeta in L. destruct (ph_clip p newp newid _ tol) as [part np].
  pose proof (looking_loop p newid req tol (ph_volume p) nmax (p_normal h) lo hi ltac:(lra) fuel (0 + 1)%Z _ _ L) as G. cbv zeta in G. destruct (frac_loop _ _ _ _ _ _ fuel _ _ _) as [c it]. cbn [fst snd] in G.
  destruct G as ((k' & A & B & W & N & P & V & _) & I & T). cbn [r_plane r_part r_act r_iterations]. exists (p_d (c_plane c)).
  split; [exact W|]. rewrite <- N. assert (Ec : Plane (p_normal (c_plane c)) (p_d (c_plane c)) = c_plane c) by (now destruct (c_plane c)). rewrite Ec.
  split; [reflexivity|]. split; [exact P|]. split; [now rewrite V|]. split; [lia|]. intros X. apply T. lia.
Qed.
Print Assumptions C33_fraction_clip.

Lemma insert_last (m : zmap (list coord)) k v : (forall j, In j (zkeys m) -> (j < k)%Z) -> zinsert k v m = m ++ [(k, v)].
Proof.
  induction m as [|[j w] m IH]; intros H; [reflexivity|]. cbn [zinsert app]. pose proof (H j (or_introl eq_refl)).
  destruct (Z.ltb_spec k j); [lia|]. destruct (Z.eqb_spec k j); [lia|]. rewrite IH; [reflexivity|]. intros i Hi. apply H. now right.
Qed.
Lemma copied l : forall q, (forall i j, In i (zkeys (ph_map q)) -> In j (zkeys l) -> (i < j)%Z) -> zsorted l ->
  let r := fold_left (fun q e => ph_add q (fst e) (snd e)) l q in ph_map r = ph_map q ++ l /\ ph_ids r = ph_ids q ++ zkeys l.
Proof.
  induction l as [|[k v] l IH]; intros q H Hs; [cbn; now rewrite !app_nil_r|]. cbn [fold_left fst snd]. unfold zsorted in Hs. cbn [zkeys map fst] in Hs. inversion Hs as [|? ? Hs' Hf]; subst. rewrite Forall_forall in Hf.
  assert (E : ph_map (ph_add q k v) = ph_map q ++ [(k, v)]) by (apply insert_last; intros i Hi; apply (H i k Hi); now left).
  destruct (IH (ph_add q k v)) as [A B]; [|exact Hs'|].
  - rewrite E. unfold zkeys. rewrite map_app. intros i j Hi Hj. apply in_app_iff in Hi. destruct Hi as [Hi|[<-|[]]]; [apply H; [exact Hi|now right]|]. now apply Hf.
  - rewrite A, B, E. cbn [ph_add ph_ids]. rewrite <- !app_assoc. split; reflexivity.
Qed.

(** Nothing is left of a fraction that is not positive, every polygon of one that is not below 1. *)
Theorem C33_fraction_ends : forall p newp newid h req nmax tol, let r := ph_frac_clip p newp newid h req nmax tol in
  (req <= 0 -> ph_map (r_part r) = [] /\ r_act r = 0) /\
  (1 <= req -> zsorted (ph_map p) -> ph_map (r_part r) = ph_map p /\ ph_ids (r_part r) = zkeys (ph_map p) /\ r_act r = 1).
Proof.
  intros p newp newid h req nmax tol r. unfold r, ph_frac_clip. split.
  - intros H. apply Qle_bool_iff in H. rewrite H. auto.
  - intros H Hs. destruct (Qle_bool req 0) eqn:E; [apply Qle_bool_iff in E; lra|]. apply Qle_bool_iff in H. rewrite H. cbn [r_part r_act].
    destruct (copied (ph_map p) ph_empty) as [A B]; [intros i j []|exact Hs|]. auto.
Qed.
Print Assumptions C33_fraction_ends.

(** ** The other part of the cut *)
Lemma zero_clip vs h : p_normal h = vzero -> p_d h == 0 -> pl_clip vs h 0 = [].
Proof.
  intros Hn Hd. unfold pl_clip. induction (seq 0 (length vs - 1)) as [|i l IH]; [reflexivity|]. cbn [map filter]. rewrite IH. set (s := pl_line vs i).
  assert (E : line_long (clip s h 0) = false); [|now rewrite E]. unfold clip. rewrite Hn. cbv zeta.
  assert (D : forall x, dot vzero x == 0) by (intros x; unfold dot, vzero; cbn; ring).
  destruct (Qlt_bool 0 (Qabs (dot vzero (s_vec s)))) eqn:E1; [apply Qlt_bool_iff in E1; rewrite D in E1; vm_compute in E1; discriminate|].
  destruct (Qlt_bool (dot vzero (s_start s)) (p_d h)) eqn:E2; [apply Qlt_bool_iff in E2; rewrite D, Hd in E2; lra|].
  unfold line_long. apply negb_false_iff, Qle_bool_iff. unfold set_end, set_start, line_default, norm2, dot, vsub. cbn. lra.
Qed.
Lemma clip_nothing p np newid h tol : (flat_map snd (ph_map p) <> [] -> p_d h == 0) -> p_normal h = vzero -> ph_clip p np newid h tol = (ph_empty, np).
Proof.
  intros Hd Hn. unfold ph_clip.
  assert (E : forall l q, (flat_map snd l <> [] -> p_d h == 0) -> fold_left (fun q e => let vs := pg_clip (snd e) h tol in if Nat.ltb 3 (length vs) then ph_add q (fst e) vs else q) l q = q).
  { induction l as [|[k vs] l IH]; intros q H; [reflexivity|]. cbn [fold_left fst snd].
    assert (N : pg_clip vs h tol = []).
    { unfold pg_clip. destruct vs as [|v vs]; [reflexivity|]. rewrite zero_clip; [reflexivity|exact Hn|]. apply H. cbn. discriminate. }
    rewrite N. cbn [length Nat.ltb Nat.leb]. apply IH. intros X. apply H. cbn. intros Y. apply app_eq_nil in Y. now apply X. }
  rewrite E by exact Hd. reflexivity.
Qed.

Lemma zero_loop p newid req tol vt nmax fuel : forall i k c, (flat_map snd (ph_map p) <> [] -> k_a k == 0 /\ k_b k == 0) -> p_normal (c_plane c) = vzero -> c_part c = ph_empty ->
  c_part (fst (frac_loop p newid req tol vt nmax fuel i k c)) = ph_empty.
Proof.
  induction fuel as [|fuel IH]; intros i k c Hk Hn Hc; cbn [frac_loop]; [exact Hc|]. destruct (_ || _); [exact Hc|].
  assert (Hs : flat_map snd (ph_map p) <> [] -> fst (frac_next tol k) == 0).
  { intros X. destruct (Hk X) as [A B]. destruct (next_within 0 0 tol k) as [Y Z0]; [split; lra|split; lra|]. lra. }
  destruct (frac_next tol k) as [s mid]. cbn [fst] in Hs. rewrite clip_nothing; [|exact Hs|exact Hn]. apply IH; [|exact Hn|reflexivity].
  intros X. destruct (Hk X) as [A B]. specialize (Hs X). destruct (update_cases k s (ph_volume ph_empty / vt - req) mid) as (C & D & _).
  split; [destruct C as [-> |[-> | ->]]; assumption|destruct D as [-> |[-> | ->]]; assumption].
Qed.

(** The cut at a fraction returns what the clip returns, but the other part is always empty: its plane has no normal. *)
Theorem C33_fraction_other_empty : forall p newp newid h req nmax tol, 0 < req < 1 ->
  (exists np, fst (ph_frac_cut p newp newid h req nmax tol) = ph_frac_clip p np newid h req nmax tol) /\
  ph_map (snd (ph_frac_cut p newp newid h req nmax tol)) = [] /\ ph_ids (snd (ph_frac_cut p newp newid h req nmax tol)) = [].
Proof.
  intros p newp newid h req nmax tol Hr. split; [unfold ph_frac_cut; cbn [fst]; eauto|].
  assert (E : snd (ph_frac_cut p newp newid h req nmax tol) = ph_empty); [|rewrite E; split; reflexivity].
  unfold ph_frac_cut, ph_frac_clip. cbn [snd p_normal].
  destruct (Qle_bool (1 - req) 0) eqn:E1; [apply Qle_bool_iff in E1; lra|]. destruct (Qle_bool 1 (1 - req)) eqn:E2; [apply Qle_bool_iff in E2; lra|].
  pose proof (range_ok p vzero 0 0) as W. destruct (frac_range p vzero) as [a b]. cbn [fst snd] in W. cbv zeta.
  assert (D : forall x, dot x vzero == 0) by (intros x; unfold dot, vzero; cbn; ring).
  pose proof (zero_loop p newid (1 - req) tol (ph_volume p) nmax (Z.to_nat nmax) 0 (Bracket a b a real_max (0 - (1 - req)) (1 - (1 - req)) (0 - (1 - req)) true) (Cutting ph_empty newp (Plane vzero (p_d h)) 0)) as G.
  cbn [k_a k_b c_plane c_part p_normal] in G. destruct (frac_loop _ _ _ _ _ _ _ _ _ _) as [c it]. cbn [fst r_part] in *. apply G; try reflexivity.
  intros X. destruct (W X) as [[A1 A2] [B1 B2]].
  - intros v _. rewrite D. split; vm_compute; discriminate.
  - intros v _. rewrite D. lra.
  - split; lra.
Qed.
Print Assumptions C33_fraction_other_empty.

(** ** Concrete case *)
(** A quarter of the cube: two steps find the plane exactly. *)
Example C33_fraction_case : let r := ph_frac_clip cube [] 99 (Plane ez 0) (1 # 4) 10 (1 # 1000) in
  flat_map snd (ph_map cube) <> [] /\ (forall v, In v (flat_map snd (ph_map cube)) -> 0 <= dot v ez <= 1) /\
  r_act r == 1 # 4 /\ r_iterations r = 3%Z /\ p_d (r_plane r) == 1 # 4 /\ ph_volume (r_part r) == 1 # 4.
Proof.
  cbv zeta. split; [discriminate|]. split.
  - intros v Hv. cbn in Hv. repeat (destruct Hv as [<-|Hv]; [vm_compute; split; discriminate|]). easy.
  - split; [vm_compute; reflexivity|]. split; [vm_compute; reflexivity|]. split; vm_compute; reflexivity.
Qed.
(** So the parts of a quarter of the cube and of the rest have volumes 1/4 and 0. *)
Theorem C33_fraction_cut_refuted : exists p id h, ph_volume p == 1 /\
  ph_volume (r_part (fst (ph_frac_cut p [] id h (1 # 4) 10 (1 # 1000)))) == 1 # 4 /\ ph_volume (snd (ph_frac_cut p [] id h (1 # 4) 10 (1 # 1000))) == 0.
Proof.
  exists cube, 99%Z, (Plane ez 0). split; [vm_compute; reflexivity|]. split; vm_compute; reflexivity.
Qed.
Print Assumptions C33_fraction_cut_refuted.

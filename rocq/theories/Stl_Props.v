(** C37, C38: STL files. *)
From Coq Require Import ZArith List Lia Bool String Ascii.
From Verif Require Import Prelude ZMap Mesh_Proofs Stl_Model.
Import ListNotations.
Open Scope Z_scope.
Notation length := List.length.

(** ** Vocabulary *)
Definition coords {V} (c : @coord3 V) : list V := [fst (fst c); snd (fst c); snd c].
Definition numbers {V} (f : facet V) : list V := coords (f_normal f) ++ coords (f_a f) ++ coords (f_b f) ++ coords (f_c f).
Definition is_byte (b : Z) : Prop := 0 <= b < 256.
(** The numbers survive conversion to a 32-bit word and back; the extra characters are bytes. *)
Definition fits_float {V} (to_f : V -> Z) (of_f : Z -> V) (f : facet V) : Prop :=
  Forall (fun x => 0 <= to_f x < 2 ^ 32 /\ of_f (to_f x) = x) (numbers f) /\ is_byte (fst (f_extra f)) /\ is_byte (snd (f_extra f)).
(** Somewhere in bytes 84 to 339 is a zero byte with no "vertex" before it. *)
Definition binary_looking (bs : bytes) : Prop :=
  exists k, (84 <= k < 340)%nat /\ nth k bs 1 = 0 /\ forall i, (84 <= i)%nat -> (i + 6 <= k)%nat -> firstn 6 (skipn i bs) <> text "vertex".
Definition numbered (n : nat) : list Z := map Z.of_nat (seq 0 n).

(** ** Lists *)
Lemma mapM_app {A B} (f : A -> outcome B) l l' r r' : mapM f l = Ok r -> mapM f l' = Ok r' -> mapM f (l ++ l') = Ok (r ++ r').
Proof.
  revert r. induction l as [|x l IH]; intros r; cbn [mapM app]; [intros [= <-]; auto|]. destruct (f x); cbn [bind]; try discriminate. destruct (mapM f l) as [rl| |]; cbn [bind]; try discriminate. intros [= <-] H. now rewrite (IH rl eq_refl H).
Qed.
Lemma mapM_length {A B} (f : A -> outcome B) l r : mapM f l = Ok r -> length r = length l.
Proof. revert r. induction l as [|x l IH]; intros r; cbn [mapM]; [now intros [= <-]|]. destruct (f x); cbn [bind]; try discriminate. destruct (mapM f l) as [rl| |]; cbn [bind]; try discriminate. intros [= <-]. cbn. f_equal. now apply IH. Qed.
Lemma mapM_ext_in {A B} (f g : A -> outcome B) l : (forall x, In x l -> f x = g x) -> mapM f l = mapM g l.
Proof. induction l as [|x l IH]; intros H; cbn [mapM]; [reflexivity|]. rewrite H by now left. rewrite IH by (intros; apply H; now right). reflexivity. Qed.
Lemma numbered_S n : numbered (S n) = numbered n ++ [Z.of_nat n].
Proof. unfold numbered. rewrite seq_S, map_app. reflexivity. Qed.

(** ** Reading facets one after the other *)
Definition loaded {V} (s : stl V) (fs : list (facet V)) : Prop := s_ids s = numbered (length fs) /\ facets s = Ok fs.
Lemma loaded_add {V} (s : stl V) fs f : loaded s fs -> loaded (add_facet s (Z.of_nat (length fs)) f) (fs ++ [f]).
Proof.
  intros [I F]. unfold loaded, facets in *. cbn [add_facet s_ids s_map]. rewrite app_length, Nat.add_comm. cbn [plus length]. rewrite numbered_S, I. split; [reflexivity|].
  apply mapM_app.
  - rewrite <- F, I. apply mapM_ext_in. intros x Hx. unfold zat. rewrite zlookup_insert_ne; [reflexivity|]. unfold numbered in Hx. apply in_map_iff in Hx. destruct Hx as (k & <- & Hk). apply in_seq in Hk. lia.
  - cbn. unfold zat. now rewrite zlookup_insert_eq.
Qed.
(** ** Binary *)
Section Binary.
Context {V : Type} (to_f : V -> Z) (of_f : Z -> V).
Lemma le4_word w : 0 <= w < 2 ^ 32 -> w mod 256 + 256 * ((w / 256) mod 256) + 65536 * ((w / 65536) mod 256) + 16777216 * ((w / 16777216) mod 256) = w.
Proof.
  intros H. assert (E0 := Z.div_mod w 256 ltac:(lia)). assert (E1 := Z.div_mod (w / 256) 256 ltac:(lia)). assert (E2 := Z.div_mod (w / 256 / 256) 256 ltac:(lia)).
  rewrite !Z.div_div in E2 by lia. rewrite !Z.div_div in E1 by lia. change (256 * 256) with 65536 in *. change (65536 * 256) with 16777216 in *.
  assert (w / 16777216 < 256) by (apply Z.div_lt_upper_bound; lia). assert (0 <= w / 16777216) by (apply Z.div_pos; lia). rewrite (Z.mod_small (w / 16777216)) by lia. lia.
Qed.
Lemma read_float_ok x r : 0 <= to_f x < 2 ^ 32 -> of_f (to_f x) = x -> read_float of_f (le4 (to_f x) ++ r) = Ok (x, r).
Proof. intros H E. unfold le4. cbn [app read_float]. rewrite le4_word by exact H. now rewrite E. Qed.
Lemma read_coord_ok c r : Forall (fun x => 0 <= to_f x < 2 ^ 32 /\ of_f (to_f x) = x) (coords c) -> read_coord of_f (write_coord to_f c ++ r) = Ok (c, r).
Proof.
  destruct c as [[x y] z]. unfold coords, read_coord, write_coord. cbn [fst snd]. intros F. inversion F as [|? ? [X X'] F1]; subst. inversion F1 as [|? ? [Y Y'] F2]; subst. inversion F2 as [|? ? [Z1 Z'] F3]; subst.
  rewrite <- !app_assoc. rewrite read_float_ok by assumption. cbn [bind snd]. rewrite read_float_ok by assumption. cbn [bind snd]. rewrite read_float_ok by assumption. reflexivity.
Qed.
Lemma read_facet_ok f r : fits_float to_f of_f f -> read_facet of_f (write_facet to_f f ++ r) = Ok (f, r).
Proof.
  intros [F _]. unfold numbers in F. rewrite !Forall_app in F. destruct F as (Fn & Fa & Fb & Fc). unfold read_facet, write_facet. rewrite <- !app_assoc.
  rewrite read_coord_ok by assumption. cbn [bind snd]. rewrite read_coord_ok by assumption. cbn [bind snd]. rewrite read_coord_ok by assumption. cbn [bind snd]. rewrite read_coord_ok by assumption. cbn [bind snd fst app].
  destruct f as [n a b c [e0 e1]]. reflexivity.
Qed.
Lemma write_facet_length f : length (write_facet to_f f) = 50%nat.
Proof. unfold write_facet, write_coord. rewrite !app_length. reflexivity. Qed.
Lemma body_length fs : length (flat_map (write_facet to_f) fs) = (50 * length fs)%nat.
Proof. induction fs as [|f fs IH]; cbn [flat_map length]; [reflexivity|]. rewrite app_length, IH, write_facet_length. lia. Qed.
Lemma read_binary_all fs : Forall (fits_float to_f of_f) fs -> forall done s, loaded s done ->
  exists s', read_all (read_facet of_f) (length fs) (Z.of_nat (length done)) s (flat_map (write_facet to_f) fs) = Ok s' /\ loaded s' (done ++ fs) /\ s_binary s' = s_binary s.
Proof.
  induction fs as [|f fs IH]; intros H done s L.
  - exists s. rewrite app_nil_r. cbn. auto.
  - inversion H as [|? ? Hf Hfs]; subst. cbn [length read_all flat_map]. rewrite read_facet_ok by exact Hf. cbn [bind fst snd].
    destruct (IH Hfs (done ++ [f]) (add_facet s (Z.of_nat (length done)) f) (loaded_add s done f L)) as (s' & E & L' & B). exists s'. rewrite app_length in E. cbn [length] in E. replace (Z.of_nat (length done + 1)) with (Z.of_nat (length done) + 1) in E by lia. split; [exact E|]. rewrite <- app_assoc in L'. cbn in L', B. auto.
Qed.
End Binary.
Lemma skipn_plus {A} i n (l : list A) : skipn i (skipn n l) = skipn (n + i) l.
Proof. revert l. induction n as [|n IH]; intros l; [reflexivity|]. destruct l; [now rewrite !skipn_nil|]. cbn [skipn plus]. apply IH. Qed.
Lemma firstn_window {A} (bs : list A) : (340 <= length bs)%nat -> length (firstn 256 (skipn 84 bs)) = 256%nat.
Proof. intros H. rewrite firstn_length, skipn_length. lia. Qed.
Lemma has_prefix p l : has p l = true -> exists i, (i + length p <= length l)%nat /\ firstn (length p) (skipn i l) = p.
Proof.
  induction l as [|c l IH]; cbn [has].
  - rewrite orb_false_r. unfold prefix. destruct (list_eq_dec Z.eq_dec _ _) as [E|]; [|discriminate]. intros _. exists 0%nat. cbn [skipn]. split; [|exact E]. rewrite firstn_nil in E. rewrite <- E. cbn. lia.
  - rewrite orb_true_iff. intros [H|H].
    + unfold prefix in H. destruct (list_eq_dec Z.eq_dec _ _) as [E|]; [|discriminate]. exists 0%nat. cbn [skipn]. split; [|exact E]. apply (f_equal (@length Z)) in E. rewrite firstn_length in E. lia.
    + destruct (IH H) as (i & L & E). exists (S i). cbn [skipn length]. split; [lia|exact E].
Qed.
Lemma has_at p l i : (i + length p <= length l)%nat -> firstn (length p) (skipn i l) = p -> has p l = true.
Proof.
  revert i. induction l as [|c l IH]; intros i L E.
  - cbn [length] in L. assert (i = 0%nat) by lia. subst. cbn [skipn] in E. cbn [has]. unfold prefix. destruct (list_eq_dec Z.eq_dec _ _); [reflexivity|contradiction].
  - cbn [has]. destruct i as [|i].
    + cbn [skipn] in E. unfold prefix. destruct (list_eq_dec Z.eq_dec _ _); [reflexivity|contradiction].
    + cbn [skipn length] in *. rewrite (IH i) by (assumption || lia). apply orb_true_r.
Qed.
Lemma before_zero_nth l k : nth k l 1 = 0 -> (length (before_zero l) <= k)%nat /\ before_zero l = firstn (length (before_zero l)) l /\ existsb (Z.eqb 0) l = true.
Proof.
  revert k. induction l as [|c l IH]; intros k H; [destruct k; discriminate|]. cbn [before_zero existsb]. destruct (Z.eqb_spec c 0) as [->|N].
  - cbn. auto with arith.
  - destruct k as [|k]; [cbn in H; contradiction|]. cbn [nth] in H. destruct (IH k H) as (A & B & C). cbn [length firstn]. split; [lia|]. split; [now rewrite <- B|]. destruct (Z.eqb_spec 0 c); [reflexivity|exact C].
Qed.
Lemma binary_looking_find bs : (340 <= length bs)%nat -> binary_looking bs -> find_vertex (firstn 256 (skipn 84 bs)) = Ok false.
Proof.
  intros L (k & Hk & Z0 & Nv). set (buf := firstn 256 (skipn 84 bs)).
  assert (NB : forall i, (i < 256)%nat -> nth i buf 1 = nth (84 + i) bs 1).
  { intros i Hi. unfold buf. transitivity (nth i (skipn 84 bs) 1).
    - rewrite <- (firstn_skipn 256 (skipn 84 bs)) at 2. rewrite app_nth1; [reflexivity|]. rewrite (firstn_window bs L). exact Hi.
    - rewrite <- (firstn_skipn 84 bs) at 2. rewrite app_nth2; rewrite firstn_length, Nat.min_l by lia; [f_equal; lia|lia]. }
  assert (Zk : nth (k - 84) buf 1 = 0) by (rewrite NB by lia; replace (84 + (k - 84))%nat with k by lia; exact Z0).
  destruct (before_zero_nth buf (k - 84) Zk) as (Lb & Eb & Ex). unfold find_vertex. destruct (has (text "vertex") (before_zero buf)) eqn:Hh; [|now rewrite Ex].
  apply has_prefix in Hh. destruct Hh as (i & Li & Ei). exfalso. change (length (text "vertex")) with 6%nat in *. apply (Nv (84 + i)%nat); [lia|lia|]. set (n := length (before_zero buf)) in *. rewrite Eb in Ei.
  rewrite skipn_firstn_comm, firstn_firstn, Nat.min_l in Ei by lia. unfold buf in Ei. rewrite skipn_firstn_comm, firstn_firstn, Nat.min_l in Ei by lia.
  replace (skipn (84 + i) bs) with (skipn i (skipn 84 bs)); [exact Ei|]. apply skipn_plus.
Qed.
Lemma save_binary_shape {V} (to_f : V -> Z) s fs : facets s = Ok fs -> save_binary to_f s = Ok (repeat 0 80 ++ le4 (zlen (s_ids s)) ++ flat_map (write_facet to_f) fs) /\ length (repeat 0 80 ++ le4 (zlen (s_ids s)) ++ flat_map (write_facet to_f) fs) = (84 + 50 * length fs)%nat.
Proof.
  intros E. unfold save_binary. rewrite E. split; [reflexivity|]. rewrite !app_length, repeat_length, body_length. cbn [le4 length]. lia.
Qed.
(** Binary files with at least six facets (340 bytes or more), unless taken for text: the same facets in the same order, numbered 0, 1, 2, ..., whatever
    was loaded before. *)
Theorem C37_binary_round_trip : forall {V} (to_f : V -> Z) (of_f : Z -> V) num (s old : stl V) fs,
  facets s = Ok fs -> Forall (fits_float to_f of_f) fs ->
  exists bs, save_binary to_f s = Ok bs /\ length bs = (84 + 50 * length fs)%nat /\
    ((340 <= length bs)%nat -> binary_looking bs ->
       exists s', load of_f num bs old = Ok (true, s') /\ s_ids s' = numbered (length fs) /\ facets s' = Ok fs /\ s_binary s' = true).
Proof.
  intros V to_f of_f num s old fs F Ff. destruct (save_binary_shape to_f s fs F) as [E L]. set (bs := repeat 0 80 ++ le4 (zlen (s_ids s)) ++ flat_map (write_facet to_f) fs) in *.
  exists bs. split; [exact E|]. split; [exact L|]. intros H340 Bl. unfold load. rewrite (firstn_window bs H340). change (256 <? 256)%nat with false. cbv iota. rewrite (binary_looking_find bs H340 Bl). cbn [bind].
  unfold zlen. rewrite L. replace (Z.of_nat (84 + 50 * length fs) - 84) with (Z.of_nat (length fs) * 50) by lia. rewrite Z.mod_mul, Z.div_mul by lia. cbn [Z.eqb negb orb].
  destruct (Z.ltb_spec (Z.of_nat (84 + 50 * length fs)) 134); [lia|]. rewrite Nat2Z.id.
  assert (Sk : skipn 84 bs = flat_map (write_facet to_f) fs) by (unfold bs; rewrite app_assoc; rewrite skipn_app; rewrite skipn_all2 by (rewrite app_length, repeat_length; cbn; lia); rewrite app_length, repeat_length; cbn [le4 length]; reflexivity).
  rewrite Sk. destruct (read_binary_all to_f of_f fs Ff [] (Stl true [] zempty)) as (s' & R & [I Fs] & B); [split; reflexivity|]. cbn [length Z.of_nat] in R. rewrite R. cbn [bind]. exists s'. auto.
Qed.
Print Assumptions C37_binary_round_trip.

(** ** Text *)
(** A number is printed without white space and zero bytes, in 14 to 16 characters (fixed-width scientific notation), and parsed back up to the next white
    space; the extra characters are zero. *)
Definition prints {V} (show : V -> bytes) (num : bytes -> option (V * bytes)) (x : V) : Prop :=
  Forall (fun c => space c = false /\ c <> 0) (show x) /\ (14 <= length (show x) <= 16)%nat /\
  forall c r, space c = true -> num (show x ++ c :: r) = Some (x, c :: r).
Definition fits_text {V} (show : V -> bytes) (num : bytes -> option (V * bytes)) (f : facet V) : Prop :=
  Forall (prints show num) (numbers f) /\ f_extra f = (0, 0).
Section Text.
Context {V : Type} (show : V -> bytes) (num : bytes -> option (V * bytes)).
Lemma read_num_ok x w c r : prints show num x -> space w = true -> space c = true -> read_num num (w :: show x ++ c :: r) = Ok (x, c :: r).
Proof.
  intros (F & L & P) Hw Hc. unfold read_num. cbn [skip]. rewrite Hw. assert (Sk : skip (show x ++ c :: r) = show x ++ c :: r).
  { destruct (show x) as [|d l] eqn:E; [cbn in L; lia|]. inversion F as [|? ? [Hd _] _]; subst. cbn [app skip]. now rewrite Hd. }
  rewrite Sk, P by exact Hc. reflexivity.
Qed.
Lemma read_num3_ok c r : Forall (prints show num) (coords c) -> read_num3 num (32 :: show3 show c ++ newline :: r) = Ok (c, newline :: r).
Proof.
  destruct c as [[x y] z]. unfold coords, show3, read_num3. cbn [fst snd]. intros F. inversion F as [|? ? X F1]; subst. inversion F1 as [|? ? Y F2]; subst. inversion F2 as [|? ? Z1 _]; subst.
  change (text " ") with [32]. rewrite <- !app_assoc. cbn [app]. rewrite read_num_ok by (reflexivity || assumption). cbn [bind snd]. rewrite read_num_ok by (reflexivity || assumption). cbn [bind snd]. rewrite read_num_ok by (reflexivity || assumption). reflexivity.
Qed.
Definition facet_text (f : facet V) : bytes := unlines (facet_lines show f).
Lemma facet_text_app f r : facet_text f ++ r = text "facet normal " ++ show3 show (f_normal f) ++ newline :: text "outer loop" ++ newline :: text "vertex " ++ show3 show (f_a f) ++ newline :: text "vertex " ++ show3 show (f_b f) ++ newline :: text "vertex " ++ show3 show (f_c f) ++ newline :: text "endloop" ++ newline :: text "endfacet" ++ newline :: r.
Proof. unfold facet_text, unlines, facet_lines. cbn [flat_map]. rewrite app_nil_r. rewrite <- !app_assoc. cbn [app]. reflexivity. Qed.
Lemma read_text_facet_ok f w r : fits_text show num f -> w = [] \/ w = [newline] -> read_text_facet num (w ++ facet_text f ++ r) = Ok (f, newline :: r).
Proof.
  intros [F X] Hw. unfold numbers in F. rewrite !Forall_app in F. destruct F as (Fn & Fa & Fb & Fc). rewrite facet_text_app. unfold read_text_facet.
  match goal with |- context [read_word (w ++ text "facet normal " ++ ?q)] => set (q0 := q); replace (read_word (w ++ text "facet normal " ++ q0)) with (Ok (text " normal " ++ q0)) by (destruct Hw as [-> | ->]; reflexivity) end.
  cbn [bind]. replace (read_word (text " normal " ++ q0)) with (Ok (32 :: q0)) by reflexivity. cbn [bind]. unfold q0. rewrite read_num3_ok by assumption. cbn [bind fst snd].
  match goal with |- context [read_word (newline :: text "outer loop" ++ ?q)] => set (q1 := q); replace (read_word (newline :: text "outer loop" ++ q1)) with (Ok (text " loop" ++ q1)) by reflexivity end.
  cbn [bind]. unfold q1. match goal with |- context [read_word (text " loop" ++ newline :: ?q)] => set (q2 := q); replace (read_word (text " loop" ++ newline :: q2)) with (Ok (newline :: q2)) by reflexivity end. cbn [bind]. unfold q2.
  match goal with |- context [read_word (newline :: text "vertex " ++ ?q)] => set (q3 := q); replace (read_word (newline :: text "vertex " ++ q3)) with (Ok (32 :: q3)) by reflexivity end. cbn [bind]. unfold q3. rewrite read_num3_ok by assumption. cbn [bind fst snd].
  match goal with |- context [read_word (newline :: text "vertex " ++ ?q)] => set (q4 := q); replace (read_word (newline :: text "vertex " ++ q4)) with (Ok (32 :: q4)) by reflexivity end. cbn [bind]. unfold q4. rewrite read_num3_ok by assumption. cbn [bind fst snd].
  match goal with |- context [read_word (newline :: text "vertex " ++ ?q)] => set (q5 := q); replace (read_word (newline :: text "vertex " ++ q5)) with (Ok (32 :: q5)) by reflexivity end. cbn [bind]. unfold q5. rewrite read_num3_ok by assumption. cbn [bind fst snd].
  match goal with |- context [read_word (newline :: text "endloop" ++ newline :: ?q)] => set (q6 := q); replace (read_word (newline :: text "endloop" ++ newline :: q6)) with (Ok (newline :: q6)) by reflexivity end. cbn [bind]. unfold q6.
  replace (read_word (newline :: text "endfacet" ++ newline :: r)) with (Ok (newline :: r)) by reflexivity. cbn [bind].
  destruct f as [n a b c e]. cbn in X. subst e. reflexivity.
Qed.
Lemma read_text_all fs : Forall (fits_text show num) fs -> forall done s w rest, loaded s done -> w = [] \/ w = [newline] ->
  exists s', read_all (read_text_facet num) (length fs) (Z.of_nat (length done)) s (w ++ flat_map facet_text fs ++ rest) = Ok s' /\ loaded s' (done ++ fs) /\ s_binary s' = s_binary s.
Proof.
  induction fs as [|f fs IH]; intros H done s w rest L Hw.
  - exists s. rewrite app_nil_r. cbn. auto.
  - inversion H as [|? ? Hf Hfs]; subst. cbn [length read_all flat_map]. rewrite <- app_assoc. rewrite read_text_facet_ok by assumption. cbn [bind fst snd].
    destruct (IH Hfs (done ++ [f]) (add_facet s (Z.of_nat (length done)) f) [newline] rest (loaded_add s done f L) (or_intror eq_refl)) as (s' & E & L' & B). exists s'. rewrite app_length in E. cbn [length] in E. replace (Z.of_nat (length done + 1)) with (Z.of_nat (length done) + 1) in E by lia. split; [exact E|]. rewrite <- app_assoc in L'. cbn in L', B. auto.
Qed.
(** *** Counting lines *)
Lemma count_line l j n r : Forall (fun c => c <> newline) l -> count_lines j n (l ++ newline :: r) = count_lines 1 (if 4 <? j + zlen l then n + 1 else n) r.
Proof.
  revert j. induction l as [|c l IH]; intros j H; cbn [app count_lines].
  - rewrite Z.eqb_refl. unfold zlen. cbn. now rewrite Z.add_0_r.
  - inversion H; subst. destruct (Z.eqb_spec c newline); [contradiction|]. rewrite IH by assumption. unfold zlen. cbn [length]. rewrite Nat2Z.inj_succ. now replace (j + 1 + Z.of_nat (length l)) with (j + Z.succ (Z.of_nat (length l))) by lia.
Qed.
Lemma count_unlines ls n r : Forall (fun l => Forall (fun c => c <> newline) l /\ (4 <= length l)%nat) ls -> count_lines 1 n (unlines ls ++ r) = count_lines 1 (n + Z.of_nat (length ls)) r.
Proof.
  revert n. induction ls as [|l ls IH]; intros n H.
  - cbn. now rewrite Z.add_0_r.
  - inversion H as [|? ? [Hl L] Hls]; subst. unfold unlines. cbn [flat_map]. fold (unlines ls). rewrite <- !app_assoc. cbn [app]. rewrite count_line by assumption. unfold zlen. destruct (Z.ltb_spec 4 (1 + Z.of_nat (length l))); [|lia]. rewrite IH by assumption. f_equal. cbn [length]. lia.
Qed.
Definition plain (l : bytes) : Prop := Forall (fun c => c <> newline /\ c <> 0) l.
Lemma show3_plain c : Forall (prints show num) (coords c) -> plain (show3 show c) /\ (44 <= length (show3 show c) <= 50)%nat.
Proof.
  destruct c as [[x y] z]. unfold coords, show3. cbn [fst snd]. intros F. inversion F as [|? ? X F1]; subst. inversion F1 as [|? ? Y F2]; subst. inversion F2 as [|? ? Z1 _]; subst.
  destruct X as (Px & Lx & _), Y as (Py & Ly & _), Z1 as (Pz & Lz & _).
  assert (G : forall l : bytes, Forall (fun c => space c = false /\ c <> 0) l -> plain l). { intros l. apply Forall_impl. intros a [A B]. split; [|exact B]. intros ->. discriminate. }
  split.
  - unfold plain. rewrite !Forall_app. repeat match goal with |- _ /\ _ => split end; try (now apply G); repeat constructor; cbn; discriminate.
  - rewrite !app_length. cbn. lia.
Qed.
Lemma text_plain : Forall plain [text "facet normal "; text "outer loop"; text "vertex "; text "endloop"; text "endfacet"; text "solid"; text "endsolid"].
Proof. repeat (constructor; [repeat constructor; cbn; discriminate|]). constructor. Qed.
Lemma facet_lines_plain f : fits_text show num f -> Forall (fun l => plain l /\ (4 <= length l)%nat) (facet_lines show f).
Proof.
  intros [F _]. unfold numbers in F. rewrite !Forall_app in F. destruct F as (Fn & Fa & Fb & Fc).
  destruct (show3_plain _ Fn) as [Pn Ln], (show3_plain _ Fa) as [Pa La], (show3_plain _ Fb) as [Pb Lb], (show3_plain _ Fc) as [Pc Lc]. assert (T := text_plain). repeat match goal with H : Forall plain (_ :: _) |- _ => inversion H; subst; clear H end.
  unfold facet_lines. repeat (constructor; [split; [try assumption; apply Forall_app; split; assumption|rewrite ?app_length; cbn; lia]|]). constructor.
Qed.
Lemma unlines_app a b : unlines (a ++ b) = unlines a ++ unlines b.
Proof. apply flat_map_app. Qed.
Lemma unlines_facets fs : unlines (flat_map (facet_lines show) fs) = flat_map facet_text fs.
Proof. induction fs as [|f fs IH]; [reflexivity|]. cbn [flat_map]. rewrite unlines_app, IH. reflexivity. Qed.
Lemma flat_lines_length fs : length (flat_map (facet_lines show) fs) = (7 * length fs)%nat.
Proof. induction fs as [|f fs IH]; [reflexivity|]. cbn [flat_map]. rewrite app_length, IH. cbn [facet_lines length]. lia. Qed.
Lemma flat_lines_plain fs : Forall (fits_text show num) fs -> Forall (fun l => plain l /\ (4 <= length l)%nat) (flat_map (facet_lines show) fs).
Proof. induction 1 as [|f fs H _ IH]; [constructor|]. cbn [flat_map]. apply Forall_app. split; [now apply facet_lines_plain|exact IH]. Qed.
Lemma ascii_shape fs : unlines (ascii_lines show fs) = text "solid" ++ newline :: flat_map facet_text fs ++ text "endsolid" ++ [newline].
Proof. unfold ascii_lines. rewrite !unlines_app, unlines_facets. cbn [unlines flat_map]. rewrite app_nil_r. reflexivity. Qed.
Lemma count_ascii fs : Forall (fits_text show num) fs -> count_lines 0 1 (unlines (ascii_lines show fs)) = 7 * Z.of_nat (length fs) + 3.
Proof.
  intros H. rewrite ascii_shape. rewrite count_line by (repeat constructor; discriminate). change (if 4 <? 0 + zlen (text "solid") then 1 + 1 else 1) with 2.
  rewrite <- unlines_facets. rewrite count_unlines by (eapply Forall_impl; [|apply flat_lines_plain, H]; intros l [P L]; split; [eapply Forall_impl; [|exact P]; now intros a [A _]|exact L]).
  change (text "endsolid" ++ [newline]) with (text "endsolid" ++ newline :: []). rewrite count_line by (repeat constructor; discriminate). cbn [count_lines]. change (4 <? 1 + zlen (text "endsolid")) with true. rewrite flat_lines_length. cbv iota. lia.
Qed.
(** *** Length of the file *)
Lemma facet_text_length f : fits_text show num f -> (242 <= length (facet_text f) <= 266)%nat.
Proof.
  intros [F _]. unfold numbers in F. rewrite !Forall_app in F. destruct F as (Fn & Fa & Fb & Fc).
  apply show3_plain in Fn. apply show3_plain in Fa. apply show3_plain in Fb. apply show3_plain in Fc.
  unfold facet_text, unlines, facet_lines. cbn [flat_map]. rewrite !app_length. change (length (text "facet normal ")) with 13%nat. change (length (text "outer loop")) with 10%nat. change (length (text "vertex ")) with 7%nat. change (length (text "endloop")) with 7%nat. change (length (text "endfacet")) with 8%nat. cbn [length]. lia.
Qed.
End Text.
Lemma before_zero_app p l : Forall (fun c => c <> 0) p -> before_zero (p ++ l) = p ++ before_zero l.
Proof. induction 1 as [|c p H _ IH]; [reflexivity|]. cbn [app before_zero]. destruct (Z.eqb_spec c 0); [contradiction|]. now rewrite IH. Qed.
Lemma has_mid x p q : has x (p ++ x ++ q) = true.
Proof.
  apply (has_at x _ (length p)).
  - rewrite !app_length. lia.
  - rewrite skipn_app, skipn_all, Nat.sub_diag. cbn [skipn app]. rewrite firstn_app, Nat.sub_diag, firstn_all. cbn. apply app_nil_r.
Qed.
Lemma find_vertex_text P Q : Forall (fun c => c <> 0) P -> (84 <= length P <= 334)%nat -> find_vertex (firstn 256 (skipn 84 (P ++ text "vertex" ++ Q))) = Ok true.
Proof.
  intros H L. unfold find_vertex. rewrite skipn_app. replace (84 - length P)%nat with 0%nat by lia. change (skipn 0 (text "vertex" ++ Q)) with (text "vertex" ++ Q). rewrite firstn_app, firstn_all2 by (rewrite skipn_length; lia). rewrite firstn_app, (firstn_all2 (text "vertex")) by (rewrite skipn_length; change (length (text "vertex")) with 6%nat; lia).
  rewrite before_zero_app by (rewrite <- (firstn_skipn 84 P), Forall_app in H; apply H). rewrite before_zero_app by (repeat constructor; discriminate). now rewrite has_mid.
Qed.
(** Text files with at least two facets. *)
Theorem C37_ascii_round_trip : forall {V} of_f (show : V -> bytes) num (s old : stl V) fs,
  facets s = Ok fs -> Forall (fits_text show num) fs -> (2 <= length fs)%nat ->
  exists bs s', save_ascii show s = Ok bs /\ load of_f num bs old = Ok (true, s') /\ s_ids s' = numbered (length fs) /\ facets s' = Ok fs /\ s_binary s' = false.
Proof.
  intros V of_f show num s old fs F Ff L2. unfold save_ascii. rewrite F. cbn [bind]. set (bs := unlines (ascii_lines show fs)).
  assert (Sh := ascii_shape show fs). fold bs in Sh.
  assert (Af : after_line bs = flat_map (facet_text show) fs ++ text "endsolid" ++ [newline]) by (rewrite Sh; reflexivity).
  destruct (read_text_all show num fs Ff [] (Stl false [] zempty) [] (text "endsolid" ++ [newline])) as (s' & R & [I Fs] & B); [split; reflexivity|now left|].
  exists bs, s'. split; [reflexivity|]. unfold load.
  destruct fs as [|f [|g fs]]; cbn [length] in L2; try lia. inversion Ff as [|? ? Hf Hr]; subst. inversion Hr as [|? ? Hg Hrr]; subst.
  assert (Len : (340 <= length bs)%nat). { rewrite Sh. cbn [flat_map]. rewrite app_length. cbn [length]. rewrite !app_length. assert (A := facet_text_length show num f Hf). assert (A' := facet_text_length show num g Hg). lia. }
  rewrite (firstn_window bs Len). change (256 <? 256)%nat with false. cbv iota.
  assert (Fv : find_vertex (firstn 256 (skipn 84 bs)) = Ok true).
  { rewrite Sh. cbn [flat_map]. rewrite <- !app_assoc. rewrite facet_text_app. destruct Hf as [N _]. unfold numbers in N. rewrite !Forall_app in N. destruct N as (Nn & Na & Nb & Nc). 
    apply show3_plain in Nn. apply show3_plain in Na.
    match goal with |- context [newline :: text "vertex " ++ show3 show (f_b f) ++ ?q] => set (q0 := q) end.
    replace (text "vertex " ++ show3 show (f_b f) ++ q0) with (text "vertex" ++ text " " ++ show3 show (f_b f) ++ q0) by reflexivity. set (q1 := text " " ++ show3 show (f_b f) ++ q0).
    match goal with |- find_vertex (firstn 256 (skipn 84 ?x)) = _ => replace x with ((text "solid" ++ newline :: text "facet normal " ++ show3 show (f_normal f) ++ newline :: text "outer loop" ++ newline :: text "vertex " ++ show3 show (f_a f) ++ [newline]) ++ text "vertex" ++ q1) end.
    2: { rewrite <- !app_assoc. cbn [app]. rewrite <- !app_assoc. cbn [app]. rewrite <- !app_assoc. cbn [app]. rewrite <- !app_assoc. reflexivity. }
    destruct Nn as [Pn Ln], Na as [Pa La].
    assert (Z0 : forall l, plain l -> Forall (fun c => c <> 0) l) by (intros l; apply Forall_impl; now intros a [_ A]).
    apply find_vertex_text.
    - assert (T := text_plain). repeat match goal with H : Forall plain (_ :: _) |- _ => inversion H; subst; clear H end. repeat (rewrite Forall_app || rewrite Forall_cons_iff). repeat match goal with |- _ /\ _ => split end; first [discriminate | apply Z0; assumption | constructor].
    - repeat (rewrite app_length; cbn [length]). change (length (text "facet normal ")) with 13%nat. change (length (text "outer loop")) with 10%nat. change (length (text "vertex ")) with 7%nat. change (length (text "solid")) with 5%nat. lia. }
  rewrite Fv. cbn [bind]. rewrite Af. replace (starts_facet (flat_map (facet_text show) (f :: g :: fs) ++ text "endsolid" ++ [newline])) with true.
  2: { cbn [flat_map]. rewrite <- !app_assoc. rewrite facet_text_app. reflexivity. }
  unfold bs. rewrite (count_ascii show num) by exact Ff. rewrite Z.mul_comm, Z.div_add_l by lia. change (3 / 7) with 0. rewrite Z.add_0_r, Nat2Z.id. cbn [app length Z.of_nat] in R. cbn [length]. 
  rewrite R. cbn [bind]. auto.
Qed.
Print Assumptions C37_ascii_round_trip.

(** ** Cases and failures *)
Definition corner (k : Z) : facet Z := Facet (0, 0, 1065353216) (0, 0, 0) (1065353216, 0, 0) (0, 1065353216 + k, 0) (0, 0).
Definition stack (fs : list (facet Z)) : stl Z := fold_left (fun s f => add_facet s (next_facet s) f) fs stl_new.
Definition fourbytes (x : Z) : Z := x.
Example C37_case_binary : let fs := map corner [0; 1; 2; 3; 4; 5] in let s := stack fs in
  facets s = Ok fs /\ Forall (fits_float fourbytes fourbytes) fs /\ exists bs, save_binary fourbytes s = Ok bs /\ (340 <= length bs)%nat /\ binary_looking bs.
Proof.
  split; [reflexivity|]. split.
  - repeat constructor; cbn; discriminate.
  - eexists. split; [vm_compute; reflexivity|]. split; [vm_compute; repeat constructor|]. exists 84%nat. split; [lia|]. split; [reflexivity|]. intros i A B. lia.
Qed.
Definition show_bit (b : bool) : bytes := text (if b then "1.00000000e+00" else "0.00000000e+00").
Definition num_bit (bs : bytes) : option (bool * bytes) :=
  let wr := word bs in
  if list_eq_dec Z.eq_dec (fst wr) (show_bit true) then Some (true, snd wr) else if list_eq_dec Z.eq_dec (fst wr) (show_bit false) then Some (false, snd wr) else None.
Definition bit_facet (b : bool) : facet bool := Facet (false, false, true) (false, b, false) (true, b, false) (true, true, b) (0, 0).
Lemma word_app l c r : Forall (fun c => space c = false) l -> space c = true -> word (l ++ c :: r) = (l, c :: r).
Proof. intros H Hc. induction H as [|d l Hd _ IH]; cbn [app word]; [now rewrite Hc|]. rewrite Hd, IH. reflexivity. Qed.
Lemma show_bit_prints b : prints show_bit num_bit b.
Proof.
  split; [destruct b; repeat constructor; discriminate|]. split; [destruct b; cbn; lia|]. intros c r H. unfold num_bit.
  assert (W : word (show_bit b ++ c :: r) = (show_bit b, c :: r)) by (apply word_app; [destruct b; repeat constructor|exact H]). rewrite W. cbn [fst snd]. destruct b; reflexivity.
Qed.
Example C37_case_ascii : let s := add_facet (add_facet stl_new 0 (bit_facet false)) 1 (bit_facet true) in
  facets s = Ok [bit_facet false; bit_facet true] /\ Forall (fits_text show_bit num_bit) [bit_facet false; bit_facet true] /\
  match save_ascii show_bit s with Ok bs => load (fun _ => true) num_bit bs stl_new = Ok (true, s) | _ => False end.
Proof.
  split; [reflexivity|]. split.
  - repeat (constructor; [split; [repeat (constructor; [apply show_bit_prints|]); constructor|reflexivity]|]). constructor.
  - vm_compute. reflexivity.
Qed.
(** A valid binary file without a zero byte in bytes 84 to 339 makes the search for "vertex" run past the end of the buffer. *)
Theorem C37_no_zero_byte_refuted : exists (s : stl Z) bs, (exists fs, facets s = Ok fs /\ length fs = 6%nat /\ Forall (fits_float fourbytes fourbytes) fs) /\
  save_binary fourbytes s = Ok bs /\ load fourbytes (fun _ => None) bs stl_new = UB.
Proof.
  pose (w := 16843009). pose (f := Facet (w, w, w) (w, w, w) (w, w, w) (w, w, w) (1, 1)). exists (stack [f; f; f; f; f; f]). eexists. split; [|split].
  - exists [f; f; f; f; f; f]. split; [reflexivity|]. split; [reflexivity|]. repeat constructor; cbn; discriminate.
  - vm_compute. reflexivity.
  - vm_compute. reflexivity.
Qed.
Print Assumptions C37_no_zero_byte_refuted.
(** A valid binary file whose first eight coordinate bytes happen to contain the letters "vertex" is taken for text and rejected. *)
Theorem C37_taken_for_text_refuted : exists (s : stl Z) bs, (exists fs, facets s = Ok fs /\ length fs = 6%nat /\ Forall (fits_float fourbytes fourbytes) fs) /\
  save_binary fourbytes s = Ok bs /\ load fourbytes (fun _ => None) bs stl_new = Ok (false, stl_new).
Proof.
  pose (f := Facet (1953654134, 30821, 0) (0, 0, 0) (0, 0, 0) (0, 0, 0) (0, 0)). exists (stack [f; corner 0; corner 1; corner 2; corner 3; corner 4]). eexists. split; [|split].
  - eexists. split; [reflexivity|]. split; [reflexivity|]. repeat constructor; cbn; discriminate.
  - vm_compute. reflexivity.
  - vm_compute. reflexivity.
Qed.
Print Assumptions C37_taken_for_text_refuted.

(** ** C38: short files are ignored without an error *)
Theorem C38_short_binary_ignored : forall {V} (to_f : V -> Z) (of_f : Z -> V) num (s old : stl V) fs, facets s = Ok fs -> (length fs <= 5)%nat ->
  exists bs, save_binary to_f s = Ok bs /\ load of_f num bs old = Ok (true, old).
Proof.
  intros V to_f of_f num s old fs F L5. destruct (save_binary_shape to_f s fs F) as [E L]. eexists. split; [exact E|]. unfold load. rewrite firstn_length, skipn_length, L. destruct (Nat.ltb_spec (Nat.min 256 (84 + 50 * length fs - 84)) 256); [reflexivity|lia].
Qed.
Print Assumptions C38_short_binary_ignored.
Theorem C38_short_text_ignored : forall {V} of_f (show : V -> bytes) num (s old : stl V) fs, facets s = Ok fs -> Forall (fits_text show num) fs -> (length fs <= 1)%nat ->
  exists bs, save_ascii show s = Ok bs /\ load of_f num bs old = Ok (true, old).
Proof.
  intros V of_f show num s old fs F Ff L1. unfold save_ascii. rewrite F. cbn [bind]. eexists. split; [reflexivity|]. unfold load. rewrite firstn_length, skipn_length.
  assert (L : (length (unlines (ascii_lines show fs)) <= 281)%nat).
  { rewrite ascii_shape. destruct fs as [|f [|g fs]]; cbn [length] in L1; try lia; [cbn; lia|]. inversion Ff as [|? ? Hf _]; subst. assert (A := facet_text_length show num f Hf). cbn [flat_map]. rewrite app_nil_r, app_length. cbn [length]. rewrite !app_length. change (length (text "endsolid")) with 8%nat. change (length (text "solid")) with 5%nat. cbn [length]. lia. }
  destruct (Nat.ltb_spec (Nat.min 256 (length (unlines (ascii_lines show fs)) - 84)) 256); [reflexivity|lia].
Qed.
Print Assumptions C38_short_text_ignored.
(** Five facets saved, an empty object after a successful load; a single text facet keeps what was there before. *)
Theorem C38_round_trip_refuted : exists (s s' : stl Z) bs, facets s = Ok (map corner [0; 1; 2; 3; 4]) /\ save_binary fourbytes s = Ok bs /\
  load fourbytes (fun _ => None) bs stl_new = Ok (true, s') /\ facets s' = Ok [].
Proof. exists (stack (map corner [0; 1; 2; 3; 4])), stl_new. eexists. repeat match goal with |- _ /\ _ => split end; vm_compute; reflexivity. Qed.
Print Assumptions C38_round_trip_refuted.
Example C38_case_text : let s := add_facet stl_new 0 (bit_facet false) in let old := add_facet stl_new 7 (bit_facet true) in
  facets s = Ok [bit_facet false] /\ match save_ascii show_bit s with Ok bs => load (fun _ => true) num_bit bs old = Ok (true, old) | _ => False end.
Proof. split; vm_compute; reflexivity. Qed.

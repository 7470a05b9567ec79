(** Property C56: quadrature rules. *)
From Coq Require Import QArith Qabs ZArith List Lia Lqa Bool Setoid.
From Verif Require Import Prelude Int_Model.
Import ListNotations.
Open Scope Q_scope.

(** ** Vocabulary: polynomials and their exact integrals *)
(** A polynomial in any number of variables: coefficients with the exponents of the variables. *)
Definition poly := list (Q * list nat).
Definition qpow (x : Q) (n : nat) : Q := fold_right Qmult 1 (repeat x n).
Fixpoint mono (e : list nat) (x : list Q) : Q :=
  match e, x with k :: e', v :: x' => qpow v k * mono e' x' | _, _ => 1 end.
Definition peval (p : poly) (x : list Q) : Q := fold_right (fun t a => fst t * mono (snd t) x + a) 0 p.
Definition coefs (p : poly) : Q := fold_right (fun t a => Qabs (fst t) + a) 0 p.
(** Integral of x^k over [-1,1], and of a monomial over the square or cube [-1,1]^d. *)
Definition line_integral (k : nat) : Q := if Nat.even k then 2 / inject_Z (Z.of_nat (S k)) else 0.
Definition cube_integral (e : list nat) : Q := fold_right (fun k a => line_integral k * a) 1 e.
(** Integral of the product of powers of the barycentric coordinates over a triangle of area 1/2: i! j! k! / (i+j+k+2)!. *)
Definition fact_Q (n : nat) : Q := inject_Z (fold_right (fun k a => Z.of_nat k * a)%Z 1%Z (seq 1 n)).
Definition triangle_integral (e : list nat) : Q :=
  fold_right (fun k a => fact_Q k * a) 1 e / fact_Q (fold_right Nat.add 2%nat e).
Definition exact (over : list nat -> Q) (p : poly) : Q := fold_right (fun t a => fst t * over (snd t) + a) 0 p.
(** Exponents: all up to d (the square and the cube), and total degree at most d (the triangle). *)
Definition each_up_to (dim d : nat) (p : poly) : Prop := forall c e, In (c, e) p -> length e = dim /\ Forall (fun k => (k <= d)%nat) e.
Definition total_up_to (d : nat) (p : poly) : Prop := forall c e, In (c, e) p -> length e = 3%nat /\ (fold_right Nat.add 0 e <= d)%nat.

(** ** Linearity *)
Lemma integrate_peval rule p : integrate rule (peval p) == fold_right (fun t a => fst t * integrate rule (mono (snd t)) + a) 0 p.
Proof.
  induction p as [|t p IH]; cbn [fold_right].
  - unfold integrate. induction rule as [|r rule IHr]; [reflexivity|]. cbn [fold_right]. rewrite IHr. unfold peval. cbn [fold_right]. ring.
  - rewrite <- IH. clear IH. induction rule as [|r rule IHr]; [unfold integrate; cbn [fold_right]; ring|].
    unfold integrate in *. cbn [fold_right]. rewrite IHr. unfold peval. cbn [fold_right]. ring.
Qed.
Lemma bound rule over eps (ok : list nat -> Prop) p : (forall e, ok e -> Qabs (integrate rule (mono e) - over e) <= eps) -> (forall c e, In (c, e) p -> ok e) ->
  Qabs (integrate rule (peval p) - exact over p) <= eps * coefs p.
Proof.
  intros H O. rewrite integrate_peval. induction p as [|[c e] p IH]; cbn [fold_right exact coefs fst snd].
  - rewrite Qmult_0_r. apply Qle_refl.
  - specialize (IH (fun c e I => O c e (or_intror I))). specialize (H e (O c e (or_introl eq_refl))). unfold exact, coefs in IH.
    change (Qabs (c * integrate rule (mono e) + fold_right (fun t a => fst t * integrate rule (mono (snd t)) + a) 0 p - (c * over e + exact over p)) <= eps * (Qabs c + coefs p)).
    unfold exact, coefs. set (A := fold_right (fun t a => fst t * integrate rule (mono (snd t)) + a) 0 p) in *. set (B := fold_right (fun t a => fst t * over (snd t) + a) 0 p) in *. set (C := fold_right (fun t a => Qabs (fst t) + a) 0 p) in *. clearbody A B C.
    setoid_replace (c * integrate rule (mono e) + A - (c * over e + B)) with (c * (integrate rule (mono e) - over e) + (A - B)) by ring.
    eapply Qle_trans; [apply Qabs_triangle|]. rewrite Qabs_Qmult. assert (P := Qabs_nonneg c). nra.
Qed.

Fixpoint exps (dim d : nat) : list (list nat) := match dim with O => [[]] | S n => flat_map (fun k => map (cons k) (exps n d)) (seq 0 (S d)) end.
Lemma exps_spec dim d e : length e = dim -> Forall (fun k => (k <= d)%nat) e -> In e (exps dim d).
Proof.
  revert e. induction dim as [|n IH]; intros e L F; [destruct e; [now left|discriminate]|]. destruct e as [|k e]; [discriminate|]. inversion F; subst. cbn [exps]. apply in_flat_map. exists k. split; [apply in_seq; lia|]. apply in_map, IH; [now injection L|assumption].
Qed.
(** Checking by integers: coordinates over a common denominator D, weights over another one. *)
Definition over_den (D : positive) (v : Q) : Z := (Qnum v * (Z.pos D / Z.pos (Qden v)))%Z.
Fixpoint zmono (e : list nat) (x : list Z) : Z := match e, x with k :: e', v :: x' => (Nat.iter k (Z.mul v) (zmono e' x'))%Z | _, _ => 1%Z end.
Definition zint (D Dw : positive) (rule : list ipoint) (e : list nat) : Z :=
  fold_right (fun p a => over_den Dw (iweight p) * zmono e (map (over_den D) (ip_at p)) + a)%Z 0%Z rule.
Definition divides (D : positive) (v : Q) : bool := (Z.pos D mod Z.pos (Qden v) =? 0)%Z.
Definition fits (D Dw : positive) (rule : list ipoint) : bool := forallb (fun p => divides Dw (iweight p) && forallb (divides D) (ip_at p)) rule.
Definition close (D Dw : positive) (rule : list ipoint) (over : list nat -> Q) (eps : Q) (e : list nat) : bool :=
  Qle_bool (Qabs (inject_Z (zint D Dw rule e) * (1 # Dw) * qpow (1 # D) (fold_right Nat.add 0%nat e) - over e)) eps.
Lemma over_den_spec D v : divides D v = true -> v == inject_Z (over_den D v) * (1 # D).
Proof.
  unfold divides, over_den. rewrite Z.eqb_eq. intros M. assert (Dv := Z.div_mod (Z.pos D) (Z.pos (Qden v)) ltac:(discriminate)). rewrite M, Z.add_0_r in Dv.
  set (k := (Z.pos D / Z.pos (Qden v))%Z) in *. clearbody k. destruct v as [n d]. cbn [Qnum Qden] in *. unfold Qeq. cbn. rewrite Z.mul_1_r. rewrite Dv. ring.
Qed.
Lemma qpow_S x n : qpow x (S n) == x * qpow x n.
Proof. reflexivity. Qed.
Lemma qpow_add x m n : qpow x (m + n) == qpow x m * qpow x n.
Proof. induction m as [|m IH]; [change (qpow x n == 1 * qpow x n); ring|]. cbn [Nat.add]. rewrite !qpow_S, IH. ring. Qed.
Lemma zmono_spec D e x : length e = length x -> forallb (divides D) x = true -> mono e x == inject_Z (zmono e (map (over_den D) x)) * qpow (1 # D) (fold_right Nat.add 0%nat e).
Proof.
  revert x. induction e as [|k e IH]; intros [|v x] L F; try discriminate L; [reflexivity|]. cbn [forallb] in F. rewrite andb_true_iff in F. destruct F as [Fv Fx].
  cbn [mono zmono map fold_right]. rewrite (IH x) by (assumption || now injection L). rewrite qpow_add. generalize (zmono e (map (over_den D) x)). intros z. assert (V := over_den_spec D v Fv). clear L. induction k as [|k IHk].
  - cbn [Nat.iter nat_rect]. change (qpow v 0) with 1. change (qpow (1 # D) 0) with 1. ring.
  - cbn [Nat.iter nat_rect]. rewrite inject_Z_mult, !qpow_S. transitivity (v * (qpow v k * (inject_Z z * qpow (1 # D) (fold_right Nat.add 0%nat e)))); [ring|]. rewrite IHk. cbn [Nat.iter nat_rect]. rewrite V at 1. unfold Nat.iter. ring.
Qed.
Lemma zint_spec D Dw rule e : fits D Dw rule = true -> Forall (fun p => length (ip_at p) = length e) rule ->
  integrate rule (mono e) == inject_Z (zint D Dw rule e) * (1 # Dw) * qpow (1 # D) (fold_right Nat.add 0%nat e).
Proof.
  intros F L. unfold integrate, zint. induction L as [|p rule Hp L IH]; [cbn [fold_right]; change (inject_Z 0) with 0; ring|]. cbn [fits forallb] in F. rewrite !andb_true_iff in F. destruct F as [[Fw Fx] Fr].
  cbn [fold_right]. rewrite (IH Fr), inject_Z_plus, inject_Z_mult. rewrite (zmono_spec D e (ip_at p)) by (assumption || now symmetry). rewrite (over_den_spec Dw (iweight p) Fw) at 1. ring.
Qed.
Lemma close_spec D Dw rule over eps e : fits D Dw rule = true -> Forall (fun p => length (ip_at p) = length e) rule ->
  close D Dw rule over eps e = true -> Qabs (integrate rule (mono e) - over e) <= eps.
Proof. intros F L. unfold close. rewrite Qle_bool_iff. intros H. now rewrite (zint_spec D Dw rule e F L). Qed.
Definition points_in (dim : nat) (rule : list ipoint) : bool := forallb (fun p => (length (ip_at p) =? dim)%nat) rule.
Lemma points_in_spec dim rule (e : list nat) : points_in dim rule = true -> length e = dim -> Forall (fun p => length (ip_at p) = length e) rule.
Proof. unfold points_in. rewrite forallb_forall. intros F <-. apply Forall_forall. intros p I. now apply Nat.eqb_eq, F. Qed.
Lemma cube_bound D Dw rule dim d eps p : (fits D Dw rule && points_in dim rule && forallb (close D Dw rule cube_integral eps) (exps dim d))%bool = true -> each_up_to dim d p ->
  Qabs (integrate rule (peval p) - exact cube_integral p) <= eps * coefs p.
Proof.
  rewrite !andb_true_iff. intros [[Ft Pt] F] Dg. apply (bound _ _ _ (fun e => length e = dim /\ Forall (fun k => (k <= d)%nat) e)); [|exact Dg]. intros e [L E]. apply (close_spec D Dw); [exact Ft|now apply (points_in_spec dim)|]. rewrite forallb_forall in F. apply F. now apply exps_spec.
Qed.
(** All monomials of total degree up to d at once, each from the previous one by one multiplication, rounded to multiples of 2^-B. *)
Definition scale (B : nat) : Z := (2 ^ Z.of_nat B)%Z.
Definition near (B : nat) (v : Q) : Z := (Qnum v * scale B / Z.pos (Qden v))%Z.
Fixpoint tmoms (B : nat) (x : list Z) : nat -> Z -> list Z :=
  match x with
  | [] => fun _ acc => [acc]
  | v :: x' => fix loop (d : nat) (acc : Z) : list Z := tmoms B x' d acc ++ match d with O => [] | S d' => loop d' (Z.shiftr (v * acc) (Z.of_nat B)) end
  end.
Fixpoint texps (dim : nat) : nat -> list (list nat) :=
  match dim with
  | O => fun _ => [[]]
  | S n => fun d => (fix loop (d k : nat) : list (list nat) := map (cons k) (texps n d) ++ match d with O => [] | S d' => loop d' (S k) end) d 0%nat
  end.
Lemma texps_spec dim : forall d e, length e = dim -> (fold_right Nat.add 0 e <= d)%nat -> In e (texps dim d).
Proof.
  induction dim as [|n IH]; intros d e L T; [destruct e; [now left|discriminate]|]. destruct e as [|a e]; [discriminate|]. cbn [texps]. cbn [fold_right] in T.
  assert (G : forall d k, (k <= a)%nat -> (a - k + fold_right Nat.add 0 e <= d)%nat ->
    In (a :: e) ((fix loop (d k : nat) : list (list nat) := map (cons k) (texps n d) ++ match d with O => [] | S d' => loop d' (S k) end) d k)).
  { clear d T. induction d as [|d IHd]; intros k Hk Hd; apply in_or_app.
    - left. assert (a = k) by lia. subst. apply in_map, IH; [now injection L|lia].
    - destruct (Nat.eq_dec a k) as [->|]; [left; apply in_map, IH; [now injection L|lia]|]. right. apply IHd; lia. }
  apply G; lia.
Qed.
Definition inj (n : nat) : Q := inject_Z (Z.of_nat n).
Lemma inj_add m n : inj (m + n) == inj m + inj n. Proof. unfold inj. now rewrite Nat2Z.inj_add, inject_Z_plus. Qed.
Lemma inj_S n : inj (S n) == inj n + 1. Proof. unfold inj. rewrite Nat2Z.inj_succ. unfold Z.succ. rewrite inject_Z_plus. reflexivity. Qed.
Lemma scale_pos B : 0 < inject_Z (scale B).
Proof. unfold scale. change 0 with (inject_Z 0). rewrite <- Zlt_Qlt. apply Z.pow_pos_nonneg; lia. Qed.
Lemma near_spec B v : Qabs (v * inject_Z (scale B) - inject_Z (near B v)) <= 1.
Proof.
  unfold near. destruct v as [n d]. cbn [Qnum Qden]. set (s := scale B). clearbody s. assert (Dm := Z.div_mod (n * s) (Z.pos d) ltac:(discriminate)). assert (Bd := Z.mod_pos_bound (n * s) (Z.pos d) ltac:(reflexivity)).
  set (q := ((n * s) / Z.pos d)%Z) in *. set (r := ((n * s) mod Z.pos d)%Z) in *. clearbody q r.
  assert (X : (n # d) * inject_Z s - inject_Z q == r # d) by (unfold Qeq; cbn; nia). rewrite X, Qabs_pos; unfold Qle; cbn; lia.
Qed.
Lemma near_bound B v : Qabs v <= 1 -> Qabs (inject_Z (near B v)) <= inject_Z (scale B).
Proof.
  intros H. rewrite Qabs_Qle_condition in *. unfold near. destruct v as [n d]. cbn [Qnum Qden]. destruct H as [H1 H2]. unfold Qle in H1, H2. cbn in H1, H2. assert (0 < scale B)%Z by (unfold scale; apply Z.pow_pos_nonneg; lia). set (s := scale B) in *. clearbody s.
  rewrite <- inject_Z_opp, <- !Zle_Qle. split; [apply Z.div_le_lower_bound|apply Z.div_le_upper_bound]; nia.
Qed.
Lemma shiftr_spec B z : Qabs (inject_Z z - inject_Z (Z.shiftr z (Z.of_nat B)) * inject_Z (scale B)) <= inject_Z (scale B).
Proof.
  rewrite Z.shiftr_div_pow2 by lia. fold (scale B). assert (P : (0 < scale B)%Z) by (unfold scale; apply Z.pow_pos_nonneg; lia). set (s := scale B) in *. clearbody s.
  assert (Dm := Z.div_mod z s ltac:(lia)). assert (Bd := Z.mod_pos_bound z s P). rewrite <- inject_Z_mult. unfold Qminus. rewrite <- inject_Z_opp, <- inject_Z_plus. rewrite Qabs_pos; [rewrite <- Zle_Qle; lia|]. change 0 with (inject_Z 0). rewrite <- Zle_Qle. lia.
Qed.
Lemma Qabs_mul_le a b c d : Qabs a <= c -> Qabs b <= d -> Qabs (a * b) <= c * d.
Proof. intros H1 H2. rewrite Qabs_Qmult. assert (P := Qabs_nonneg a). assert (P' := Qabs_nonneg b). nra. Qed.
(** One rounded multiplication. *)
Lemma step_near B v A a n : Qabs v <= 1 -> Qabs A <= 1 -> Qabs (A * inject_Z (scale B) - inject_Z a) <= n ->
  Qabs (v * A * inject_Z (scale B) - inject_Z (Z.shiftr (near B v * a) (Z.of_nat B))) <= n + 2.
Proof.
  intros Hv HA Ha. assert (Hs := scale_pos B). assert (Sh := shiftr_spec B (near B v * a)). assert (Nv := near_spec B v). assert (Nb := near_bound B v Hv). rewrite inject_Z_mult in Sh.
  set (r := inject_Z (Z.shiftr (near B v * a) (Z.of_nat B))) in *. set (s := inject_Z (scale B)) in *. set (w := inject_Z (near B v)) in *. set (b := inject_Z a) in *. clearbody r s w b.
  assert (E : s * (v * A * s - r) == s * A * (v * s - w) + w * (A * s - b) + (w * b - r * s)) by ring.
  assert (T : Qabs (s * (v * A * s - r)) <= s * (n + 2)).
  { rewrite E. eapply Qle_trans; [apply Qabs_triangle|]. eapply Qle_trans; [apply Qplus_le_compat; [apply Qabs_triangle|exact Sh]|].
    assert (T1 : Qabs (s * A * (v * s - w)) <= s * 1 * 1) by (apply Qabs_mul_le; [apply Qabs_mul_le; [rewrite Qabs_pos; lra|exact HA]|exact Nv]).
    assert (T2 : Qabs (w * (A * s - b)) <= s * n) by (apply Qabs_mul_le; assumption). lra. }
  rewrite Qabs_Qmult, (Qabs_pos s) in T by lra. apply Qmult_le_l in T; assumption.
Qed.
Definition tot (e : list nat) : nat := fold_right Nat.add 0%nat e.
Definition small (x : list Q) : bool := forallb (fun v => Qle_bool (Qabs v) 1) x.
Lemma qpow_small v k : Qabs v <= 1 -> Qabs (qpow v k) <= 1.
Proof. intros H. induction k as [|k IH]; [discriminate|]. rewrite qpow_S. setoid_replace 1 with (1 * 1) by reflexivity. now apply Qabs_mul_le. Qed.
Definition off (B : nat) (A n : Q) (x : list Q) (m : Z) (e : list nat) : Prop := Qabs (A * mono e x * inject_Z (scale B) - inject_Z m) <= n + 2 * inj (tot e).
Lemma tmoms_near B x : small x = true -> forall d A a n, Qabs A <= 1 -> Qabs (A * inject_Z (scale B) - inject_Z a) <= n ->
  Forall2 (off B A n x) (tmoms B (map (near B) x) d a) (texps (length x) d).
Proof.
  induction x as [|v x IH]; intros Hx d A a n HA Ha.
  - cbn. constructor; [|constructor]. unfold off. cbn [mono tot fold_right]. change (inj 0) with 0. rewrite Qmult_1_r. lra.
  - unfold small in Hx. cbn [forallb] in Hx. rewrite andb_true_iff, Qle_bool_iff in Hx. destruct Hx as [Hv Hx]. specialize (IH Hx). cbn [tmoms map texps length].
    assert (G : forall d k a, Qabs (qpow v k * A * inject_Z (scale B) - inject_Z a) <= n + 2 * inj k ->
      Forall2 (off B A n (v :: x)) ((fix loop (d : nat) (acc : Z) : list Z := tmoms B (map (near B) x) d acc ++ match d with O => [] | S d' => loop d' (Z.shiftr (near B v * acc) (Z.of_nat B)) end) d a)
        ((fix loop (d k : nat) : list (list nat) := map (cons k) (texps (length x) d) ++ match d with O => [] | S d' => loop d' (S k) end) d k)).
    2:{ apply G. change (qpow v 0) with 1. change (inj 0) with 0. rewrite Qmult_1_l. lra. }
    clear d a Ha. intros d. induction d as [|d IHd]; intros k a Ha.
    + apply Forall2_app; [|constructor]. assert (F := IH 0%nat (qpow v k * A) a (n + 2 * inj k) ltac:(setoid_replace 1 with (1 * 1) by reflexivity; apply Qabs_mul_le; [now apply qpow_small|exact HA]) Ha).
      induction F as [|m e ms es H F IHF]; cbn [map]; constructor; [|exact IHF]. unfold off in *. cbn [mono]. unfold tot in *. cbn [fold_right]. rewrite inj_add. setoid_replace (A * (qpow v k * mono e x)) with (qpow v k * A * mono e x) by ring. lra.
    + apply Forall2_app.
      * assert (F := IH (S d) (qpow v k * A) a (n + 2 * inj k) ltac:(setoid_replace 1 with (1 * 1) by reflexivity; apply Qabs_mul_le; [now apply qpow_small|exact HA]) Ha).
        induction F as [|m e ms es H F IHF]; cbn [map]; constructor; [|exact IHF]. unfold off in *. cbn [mono]. unfold tot in *. cbn [fold_right]. rewrite inj_add. setoid_replace (A * (qpow v k * mono e x)) with (qpow v k * A * mono e x) by ring. lra.
      * apply IHd. rewrite inj_S, qpow_S. setoid_replace (v * qpow v k * A * inject_Z (scale B)) with (v * (qpow v k * A) * inject_Z (scale B)) by ring. setoid_replace (n + 2 * (inj k + 1)) with (n + 2 * inj k + 2) by ring. apply step_near; [exact Hv| |exact Ha]. setoid_replace 1 with (1 * 1) by reflexivity. apply Qabs_mul_le; [now apply qpow_small|exact HA].
Qed.
Definition add2 (a b : list Z) : list Z := map (fun p => (fst p + snd p)%Z) (combine a b).
Definition zmoments (B : nat) (rule : list ipoint) (d : nat) : list Z :=
  fold_right (fun p => add2 (tmoms B (map (near B) (ip_at p)) d (near B (iweight p)))) (map (fun _ => 0%Z) (texps 3 d)) rule.
Definition points_small (rule : list ipoint) : bool := forallb (fun p => ((length (ip_at p) =? 3)%nat && Qle_bool (Qabs (iweight p)) 1 && small (ip_at p))%bool) rule.
Lemma zmoments_near B rule d : points_small rule = true ->
  Forall2 (fun m e => Qabs (integrate rule (mono e) * inject_Z (scale B) - inject_Z m) <= inj (length rule) * (1 + 2 * inj (tot e))) (zmoments B rule d) (texps 3 d).
Proof.
  unfold zmoments, points_small, integrate. induction rule as [|p rule IH]; intros H.
  - cbn [fold_right length]. induction (texps 3 d) as [|e l IHl]; cbn [map]; constructor; [|exact IHl]. change (inject_Z 0) with 0. change (inj 0) with 0. setoid_replace (0 * inject_Z (scale B) - 0) with 0 by ring. cbn. lra.
  - cbn [forallb] in H. rewrite !andb_true_iff, Nat.eqb_eq, Qle_bool_iff in H. destruct H as [[[Hl Hw] Hs] H]. specialize (IH H). assert (F := tmoms_near B (ip_at p) Hs d (iweight p) (near B (iweight p)) 1 Hw (near_spec B (iweight p))). rewrite Hl in F.
    cbn [fold_right length]. revert F IH. generalize (tmoms B (map (near B) (ip_at p)) d (near B (iweight p))) as l1. generalize (fold_right (fun p => add2 (tmoms B (map (near B) (ip_at p)) d (near B (iweight p)))) (map (fun _ => 0%Z) (texps 3 d)) rule) as l2.
    intros l2 l1 F. revert l2. induction F as [|m e ms es Hm F IHF]; intros l2 G; inversion G as [|m2 ? ms2 ? Hm2 G2]; subst; [constructor|]. unfold add2. cbn [combine map fst snd]. constructor; [|apply IHF, G2].
    unfold off in Hm. rewrite inject_Z_plus, inj_S. set (s := inject_Z (scale B)) in *. set (W := fold_right (fun (r : ipoint) (a : Q) => iweight r * mono e (ip_at r) + a) 0 rule) in *.
    setoid_replace ((iweight p * mono e (ip_at p) + W) * s - (inject_Z m + inject_Z m2)) with ((iweight p * mono e (ip_at p) * s - inject_Z m) + (W * s - inject_Z m2)) by ring.
    eapply Qle_trans; [apply Qabs_triangle|]. lra.
Qed.
Definition tcheck (B : nat) (rule : list ipoint) (d : nat) (over : list nat -> Q) (eps : Q) : bool :=
  let slack := eps - inj (length rule) * (1 + 2 * inj d) * (1 # Z.to_pos (scale B)) in
  forallb (fun me => Qle_bool (Qabs ((fst me # Z.to_pos (scale B)) - over (snd me))) slack) (combine (zmoments B rule d) (texps 3 d)).
Lemma tri_bound B rule d eps p : (points_small rule && tcheck B rule d triangle_integral eps)%bool = true -> total_up_to d p ->
  Qabs (integrate rule (peval p) - exact triangle_integral p) <= eps * coefs p.
Proof.
  rewrite !andb_true_iff. intros [Ft F] Dg. apply (bound _ _ _ (fun e => length e = 3%nat /\ (fold_right Nat.add 0 e <= d)%nat)); [|exact Dg]. intros e [L E].
  unfold tcheck in F. cbv zeta in F. assert (Z2 := zmoments_near B rule d Ft). assert (I := texps_spec 3 d e L E).
  assert (Hs := scale_pos B). assert (P : Z.pos (Z.to_pos (scale B)) = scale B) by (apply Z2Pos.id; unfold scale; apply Z.pow_pos_nonneg; lia).
  induction Z2 as [|m e' ms es Hm Z2 IHZ]; [destruct I|]. cbn [combine forallb] in F. rewrite andb_true_iff, Qle_bool_iff in F. destruct F as [Fm F]. destruct I as [->|I]; [|now apply IHZ]. clear IHZ F Z2. cbn [fst snd] in Fm.
  assert (X : m # Z.to_pos (scale B) == inject_Z m / inject_Z (scale B)) by (rewrite <- P at 2; unfold Qdiv, Qinv, inject_Z, Qeq; cbn; ring).
  assert (Y : 1 # Z.to_pos (scale B) == / inject_Z (scale B)) by (rewrite <- P at 2; unfold Qinv, inject_Z, Qeq; cbn; ring).
  rewrite X, Y in Fm. set (s := inject_Z (scale B)) in *. clearbody s. fold (tot e) in E. assert (Dt : inj (tot e) <= inj d) by (unfold inj; rewrite <- Zle_Qle; lia). assert (0 <= inj (length rule)) by (unfold inj; change 0 with (inject_Z 0); rewrite <- Zle_Qle; lia).
  set (W := integrate rule (mono e)) in *. clearbody W. set (T := triangle_integral e) in *. clearbody T.
  setoid_replace (W - T) with ((W * s - inject_Z m) * / s + (inject_Z m / s - T)) by (field; lra). eapply Qle_trans; [apply Qabs_triangle|].
  assert (0 < / s) by (apply Qinv_lt_0_compat; exact Hs).
  assert (Qabs ((W * s - inject_Z m) * / s) <= inj (length rule) * (1 + 2 * inj d) * / s) by (apply Qabs_mul_le; [eapply Qle_trans; [exact Hm|nra]|rewrite Qabs_pos; lra]). lra.
Qed.

(** ** C56 *)
(** The 1-, 2-, 4- and 6-point beam rules: every polynomial of degree 1, 3, 7, 11, up to rounding of the tables. *)
Theorem C56_beam : forall n d p, In (n, d) [(1%Z, 1%nat); (2%Z, 3%nat); (4%Z, 7%nat); (6%Z, 11%nat)] -> each_up_to 1 d p ->
  Qabs (integrate (beam_rule n) (peval p) - exact cube_integral p) <= (1 # 1000000000) * coefs p.
Proof. intros n d p H D. cbn [In] in H. repeat (destruct H as [H|H]; [injection H as <- <-; revert D; apply (cube_bound (10 ^ 10) (10 ^ 30)); vm_compute; reflexivity|]). destruct H. Qed.
Print Assumptions C56_beam.

(** Quadrilaterals with 1 and 4 points, hexahedra with 1 and 8: degree 1 and 3 in each variable. *)
Theorem C56_quadrilateral : forall n d p, In (n, d) [(1%Z, 1%nat); (4%Z, 3%nat)] -> each_up_to 2 d p ->
  Qabs (integrate (quad_rule n) (peval p) - exact cube_integral p) <= (1 # 1000000000) * coefs p.
Proof. intros n d p H D. cbn [In] in H. repeat (destruct H as [H|H]; [injection H as <- <-; revert D; apply (cube_bound (10 ^ 10) (10 ^ 30)); vm_compute; reflexivity|]). destruct H. Qed.
Print Assumptions C56_quadrilateral.
Theorem C56_hexahedron : forall n d p, In (n, d) [(1%Z, 1%nat); (8%Z, 3%nat)] -> each_up_to 3 d p ->
  Qabs (integrate (hexa_rule n) (peval p) - exact cube_integral p) <= (1 # 1000000000) * coefs p.
Proof. intros n d p H D. cbn [In] in H. repeat (destruct H as [H|H]; [injection H as <- <-; revert D; apply (cube_bound (10 ^ 10) (10 ^ 30)); vm_compute; reflexivity|]). destruct H. Qed.
Print Assumptions C56_hexahedron.

(** Functions affine in each variable (products of affine functions, hence shape functions): exactly. *)
Theorem C56_affine : forall a b c d e g h k,
  (forall n, In n [1; 2; 4]%Z -> integrate (beam_rule n) (fun x => a + b * nth 0 x 0) == 2 * a) /\
  (forall n, In n [1; 4]%Z -> integrate (quad_rule n) (fun x => a + b * nth 0 x 0 + c * nth 1 x 0 + d * (nth 0 x 0 * nth 1 x 0)) == 4 * a) /\
  (forall n, In n [1; 8]%Z -> integrate (hexa_rule n) (fun x => let X := nth 0 x 0 in let Y := nth 1 x 0 in let Zt := nth 2 x 0 in
      a + b * X + c * Y + d * Zt + e * (X * Y) + g * (X * Zt) + h * (Y * Zt) + k * (X * Y * Zt)) == 8 * a).
Proof.
  intros. split; [|split]; intros n H; cbn [In] in H; repeat (destruct H as [<-|H]; [cbv - [Qmult Qplus Qeq]; ring|]); destruct H.
Qed.
Print Assumptions C56_affine.

(** Triangle rules, for the reference triangle of area 1/2. The 7-point table is slightly off. *)
Theorem C56_triangle : forall n d p, In (n, d) [(6%Z, 4%nat); (12%Z, 6%nat); (16%Z, 8%nat); (17%Z, 8%nat); (20%Z, 9%nat)] -> total_up_to d p ->
  Qabs (integrate (tri_rule n) (peval p) - exact triangle_integral p) <= (1 # 1000000000) * coefs p.
Proof. intros n d p H D. cbn [In] in H. repeat (destruct H as [H|H]; [injection H as <- <-; revert D; apply (tri_bound 44); vm_compute; reflexivity|]). destruct H. Qed.
Print Assumptions C56_triangle.
Theorem C56_triangle_7 : forall p, total_up_to 5 p ->
  Qabs (integrate (tri_rule 7) (peval p) - exact triangle_integral p) <= (2 # 100000) * coefs p.
Proof. intros p. apply (tri_bound 44). vm_compute. reflexivity. Qed.
Print Assumptions C56_triangle_7.
(** But the 1- and 3-point rules take the triangle to have area 1 and 3: a constant is integrated to twice and six times its integral. *)
Theorem C56_triangle_area_refuted : forall c, exact triangle_integral [(c, [0; 0; 0]%nat)] == c / 2 /\
  integrate (tri_rule 1) (fun _ => c) == c /\ integrate (tri_rule 3) (fun _ => c) == 3 * c.
Proof. intros c. split; [|split]; cbv - [Qmult Qplus Qeq]; unfold Qdiv; try ring. Qed.
Print Assumptions C56_triangle_area_refuted.

(** The 3-point beam rule does not integrate constants: it gives 10/9 of a constant instead of twice. *)
Theorem C56_beam_3_refuted : forall c, integrate (beam_rule 3) (fun _ => c) == (1111111111 # 1000000000) * c.
Proof. intros c. cbv - [Qmult Qplus Qeq]. ring. Qed.
Print Assumptions C56_beam_3_refuted.
(** The 8-point quadrilateral rule lacks the centre and has a point twice: neither constants nor odd functions come out right. *)
Theorem C56_quadrilateral_8_refuted : exact cube_integral [(1, [0; 0]%nat)] == 4 /\ integrate (quad_rule 8) (peval [(1, [0; 0]%nat)]) < 33 # 10 /\
  exact cube_integral [(1, [0; 1]%nat)] == 0 /\ integrate (quad_rule 8) (peval [(1, [0; 1]%nat)]) < - (7 # 10).
Proof. repeat match goal with |- _ /\ _ => split end; vm_compute; reflexivity. Qed.
Print Assumptions C56_quadrilateral_8_refuted.
(** The 27-point hexahedron rule has three points twice: an odd function does not integrate to zero. *)
Theorem C56_hexahedron_27_refuted : exact cube_integral [(1, [0; 1; 0]%nat)] == 0 /\ integrate (hexa_rule 27) (peval [(1, [0; 1; 0]%nat)]) < - (1 # 1).
Proof. split; vm_compute; reflexivity. Qed.
Print Assumptions C56_hexahedron_27_refuted.
(** The prism rules: the reference prism has volume 1, a constant is integrated to 8, 3/4 and less than 2/5 of itself. *)
Theorem C56_prism_refuted : forall r3 r35 c,
  integrate (prism_rule r3 r35 1) (fun _ => c) == 8 * c /\ integrate (prism_rule r3 r35 6) (fun _ => c) == (3 # 4) * c /\
  integrate (prism_rule r3 r35 9) (fun _ => c) == (381 # 972) * c.
Proof. intros. repeat match goal with |- _ /\ _ => split end; cbv - [Qmult Qplus Qeq]; ring. Qed.
Print Assumptions C56_prism_refuted.
(** Any other number of points: every integral is zero. *)
Theorem C56_other_counts : forall n r3 r35 f,
  (~ In n [1; 2; 3; 4; 6]%Z -> integrate (beam_rule n) f == 0) /\ (~ In n [1; 4; 8]%Z -> integrate (quad_rule n) f == 0) /\
  (~ In n [1; 8; 27]%Z -> integrate (hexa_rule n) f == 0) /\ (~ In n [1; 6; 9]%Z -> integrate (prism_rule r3 r35 n) f == 0).
Proof.
  assert (U : forall dim n f, (0 < dim)%nat -> integrate (unset dim n) f == 0).
  { intros dim n f Hd. unfold unset. destruct dim as [|dim]; [lia|]. induction (Z.to_nat n) as [|m IH]; [reflexivity|]. cbn [repeat integrate fold_right]. unfold integrate in IH. rewrite IH. unfold iweight. cbn [ip_w repeat fold_right]. ring. }
  intros n r3 r35 f. repeat match goal with |- _ /\ _ => split end; intros H; cbn [In] in H; [rewrite <- (U 1%nat n f) by lia|rewrite <- (U 2%nat n f) by lia|rewrite <- (U 3%nat n f) by lia|rewrite <- (U 3%nat n f) by lia];
  destruct n as [|n|n]; cbn; try reflexivity; try (exfalso; apply H; tauto).
  all: repeat (destruct n as [n|n|]; cbn; try reflexivity; try (exfalso; apply H; tauto)).
Qed.
Print Assumptions C56_other_counts.

(** The boundary-element points of any triangle: affine functions are integrated to area times the value at the centroid. *)
Theorem C56_bem : forall p1 p2 p3 area a b0 b1 b2, 0 <= area ->
  let f := fun x => a + b0 * nth 0 x 0 + b1 * nth 1 x 0 + b2 * nth 2 x 0 in
  Qabs (bem_integrate p1 p2 p3 area f - area * ((f p1 + f p2 + f p3) / 3)) <=
  area * (2 # 1000000000) * (Qabs a + Qabs (f p1 - a) + Qabs (f p2 - a) + Qabs (f p3 - a)).
Proof.
  intros p1 p2 p3 area a b0 b1 b2 Ha f.
  set (g1 := f p1 - a). set (g2 := f p2 - a). set (g3 := f p3 - a).
  assert (G : bem_integrate p1 p2 p3 area f == 2 * area * integrate (tri_rule 20) (peval [(a, [0; 0; 0]%nat); (g1, [1; 0; 0]%nat); (g2, [0; 1; 0]%nat); (g3, [0; 0; 1]%nat)])).
  { unfold bem_integrate, integrate. assert (L : Forall (fun p => length (ip_at p) = 3%nat) (tri_rule 20)) by (cbn [tri_rule]; unfold tri20; repeat (apply Forall_cons; [reflexivity|]); apply Forall_nil).
    revert L. generalize (tri_rule 20). intros l L. induction L as [|p l Hp L IH]; [cbn [fold_right]; ring|]. cbn [fold_right]. rewrite IH. destruct p as [at_ w]. cbn [ip_at] in *.
    do 4 (destruct at_ as [|? at_]; try discriminate Hp). unfold bem_point, peval, g1, g2, g3, f, qpow. cbn [ip_at map seq nth fold_right mono fst snd repeat]. unfold qpow. cbn [repeat fold_right]. ring. }
  rewrite G. assert (B := C56_triangle 20 9 [(a, [0; 0; 0]%nat); (g1, [1; 0; 0]%nat); (g2, [0; 1; 0]%nat); (g3, [0; 0; 1]%nat)] ltac:(cbn; tauto)).
  assert (T : total_up_to 9 [(a, [0; 0; 0]%nat); (g1, [1; 0; 0]%nat); (g2, [0; 1; 0]%nat); (g3, [0; 0; 1]%nat)]).
  { intros c e I. cbn [In] in I. repeat (destruct I as [I|I]; [injection I as <- <-; cbn; lia|]). destruct I. }
  specialize (B T). set (I := integrate _ _) in *. clearbody I.
  assert (E : exact triangle_integral [(a, [0; 0; 0]%nat); (g1, [1; 0; 0]%nat); (g2, [0; 1; 0]%nat); (g3, [0; 0; 1]%nat)] == (1 # 2) * ((f p1 + f p2 + f p3) / 3)).
  { unfold exact. cbn [fold_right fst snd]. assert (t0 : triangle_integral [0; 0; 0]%nat == 1 # 2) by reflexivity. assert (t1 : triangle_integral [1; 0; 0]%nat == 1 # 6) by reflexivity. assert (t2 : triangle_integral [0; 1; 0]%nat == 1 # 6) by reflexivity. assert (t3 : triangle_integral [0; 0; 1]%nat == 1 # 6) by reflexivity.
    rewrite t0, t1, t2, t3. unfold g1, g2, g3, Qdiv. change (/ 3) with (1 # 3). ring. }
  rewrite E in B. unfold coefs in B. cbn [fold_right fst] in B. clearbody g1 g2 g3. set (F := (f p1 + f p2 + f p3) / 3) in *. clearbody F.
  setoid_replace (2 * area * I - area * F) with (area * (2 * (I - (1 # 2) * F))) by ring. rewrite !Qabs_Qmult, (Qabs_pos area) by exact Ha. change (Qabs 2) with 2.
  set (A := Qabs (I - _)) in *. clearbody A. nra.
Qed.
Print Assumptions C56_bem.

Example C56_case : total_up_to 9 [(3 # 2, [4; 3; 2]%nat); (- (1), [0; 9; 0]%nat)] /\ exact triangle_integral [(3 # 2, [4; 3; 2]%nat)] == 3 # 277200.
Proof. split; [intros c e I; cbn [In] in I; repeat (destruct I as [I|I]; [injection I as <- <-; cbn; lia|]); destruct I|reflexivity]. Qed.

(** C99: finite elements for flow. *)
From Coq Require Import Reals ZArith QArith List Lia Lra Bool.
From Verif Require Import Prelude ZMap Vec Mesh_Model Mesh_Spec Mesh_Proofs Box_Proofs Int_Model Fem_Model Fem_Spec Fem_Proofs Fem_Props Asm_Model Asm_Props Stream_Model Stream_Proofs.
Import ListNotations.
Open Scope R_scope.

(** ** One element *)
(** A triangle in the plane z = 0, corners counter-clockwise: the gradient matrix weighs the derivative of a linear field with the mean of the test field;
    the convective matrix gives the integral of test field times velocity times gradient, less the time step times area times the derivatives of both along the
    mean velocity; constants give zero. *)
Theorem C99_triangle : forall p q r dt u v g h c c', upright p q r ->
  let t := linear h c' [p; q; r] in let f := linear g c [p; q; r] in
  (exists G1 G2, flow_tri_gradient CP_X p q r = Ok G1 /\ flow_tri_gradient CP_Y p q r = Ok G2 /\
     form 3 G1 t f = mean 3 t * tri_area p q r * px g /\ form 3 G2 t f = mean 3 t * tri_area p q r * py g) /\
  form 3 (flow_tri_convective dt u v p q r) t f =
    px g * tri_integral p q r t u + py g * tri_integral p q r t v
    - dt * tri_area p q r * (mean 3 u * px h + mean 3 v * py h) * (mean 3 u * px g + mean 3 v * py g) /\
  kills_constants 3 (flow_tri_convective dt u v p q r).
Proof.
  intros p q r dt u v g h c c' U t f. destruct (upright_area p q r U) as [_ HA]. pose proof (fun g c => upright_rows p q r g c 0 U ltac:(lia)) as R0. pose proof (fun g c => upright_rows p q r g c 1 U ltac:(lia)) as R1. cbn beta iota in R0, R1. split; [|split].
  - eexists. eexists. split; [reflexivity|]. split; [reflexivity|]. rewrite !form_scale, !form_same_rows. unfold f. rewrite R0, R1. unfold mean. replace (INR 3) with 3 by (cbn; ring). split; field.
  - rewrite tri_convective_form by exact HA. unfold f. rewrite !R0, !R1. unfold t at 3 4. rewrite !R0, !R1. fold t. unfold tri_integral. set (A := tri_area p q r) in *. clearbody A t. unfold mean. replace (INR 3) with 3 by (cbn; ring). cbn [rsum]. field. lra.
  - now apply tri_convective_constants.
Qed.
Print Assumptions C99_triangle.
(** A tetrahedron of positive volume, if the velocity along x is the same at its last two corners. *)
Theorem C99_tetrahedron : forall p q r s dt u v w g h c c', 0 < tet_volume p q r s ->
  let t := linear h c' [p; q; r; s] in let f := linear g c [p; q; r; s] in
  (forall k, form 4 (flow_tet_gradient k p q r s) t f = mean 4 t * tet_volume p q r s * partial k g) /\
  (u 2%nat = u 3%nat ->
     form 4 (flow_tet_convective dt u v w p q r s) t f =
       px g * tet_integral p q r s t u + py g * tet_integral p q r s t v + pz g * tet_integral p q r s t w
       - dt * tet_volume p q r s * (mean 4 u * px h + mean 4 v * py h + mean 4 w * pz h) * (mean 4 u * px g + mean 4 v * py g + mean 4 w * pz g) /\
     kills_constants 4 (flow_tet_convective dt u v w p q r s)).
Proof.
  intros p q r s dt u v w g h c c' HV t f. pose proof (fun g c => tet_rows p q r s g c 0 ltac:(lia)) as R0. pose proof (fun g c => tet_rows p q r s g c 1 ltac:(lia)) as R1. pose proof (fun g c => tet_rows p q r s g c 2 ltac:(lia)) as R2. cbn [coordinate] in R0, R1, R2. split.
  - intros k. unfold flow_tet_gradient. rewrite form_scale. unfold f, mean. replace (INR 4) with 4 by (cbn; ring). destruct k; rewrite form_same_rows, ?R0, ?R1, ?R2; cbn [partial]; field.
  - intros Eu. split; [|now apply tet_convective_constants]. rewrite tet_convective_form by exact HV. unfold f. rewrite !R0, !R1, !R2. unfold t at 5 6 7. rewrite !R0, !R1, !R2. fold t. unfold tet_integral. rewrite Eu. set (V := tet_volume p q r s) in *. clearbody V t. unfold mean. replace (INR 4) with 4 by (cbn; ring). cbn [rsum]. rewrite Eu. field. lra.
Qed.
Print Assumptions C99_tetrahedron.

(** ** Assembled *)
(** Elements the gradient is right for: triangles in the plane z = 0, counter-clockwise, and tetrahedra of positive volume. *)
Definition plain_element (nodes : table pt) (e : element) : Prop :=
  match e_type e, vertices nodes e with
  | ET_TRIANGLE, [p; q; r] => upright p q r
  | ET_TETRAHEDRON, [p; q; r; s] => 0 < tet_volume p q r s
  | _, _ => True
  end.
(** The assembled gradient of a mesh of such elements (any ids, other elements are passed over): the call returns; constant fields give zero at every node;
    for a linear field, weighed with any test field, it is the derivative times the sum over the elements of size and mean test value. *)
Theorem C99_gradient : forall nodes elems k g c t, flow_mesh nodes elems -> (forall id e, t_get elems id = Ok e -> plain_element nodes e) -> fits elems k ->
  exists G, flow_gradient nodes elems k = Ok G /\
    let n := length (t_ids nodes) in
    (forall c i, (i < n)%nat -> mat_vec n G (fun _ => c) i = 0) /\
    form n G t (sample g c nodes) =
      partial k g * lsum (fun e => if is_either (e_type e) (length (e_nodes e)) then size nodes e * mean (length (e_nodes e)) (fun i => t (nth i (map (pos_of nodes) (e_nodes e)) 0%nat)) else 0) (elements elems).
Proof.
  intros nodes elems k g c t M Pl Fk. destruct (gradient_flow nodes elems M k Fk) as (G & E & Kc). destruct (gradient_sum nodes elems M k Fk) as (G' & E' & F). rewrite E in E'. injection E' as <-.
  exists G. split; [exact E|]. cbv zeta. split; [exact Kc|]. rewrite F, <- lsum_scale. apply lsum_ext. intros e He. destruct (elements_in elems e He) as [id Hid]. specialize (Pl id e Hid). unfold plain_element in Pl.
  unfold share. destruct (is_either (e_type e) (length (e_nodes e))) eqn:HB; [|ring]. cbv zeta. unfold size.
  assert (At : forall i, (i < length (e_nodes e))%nat -> at_positions (map (pos_of nodes) (e_nodes e)) (sample g c nodes) i = linear g c (vertices nodes e) i) by (apply at_sample; [apply M|apply (wm_refs _ _ M id e Hid)]).
  destruct (either_shape e nodes HB) as [(T & p & q & r & Ev)|(T & p & q & r & s & Ev)]; rewrite T, Ev in Pl |- *.
  - assert (L : length (e_nodes e) = 3%nat) by (rewrite (nodes_length nodes e), Ev; reflexivity). rewrite L in *. rewrite Ev in At.
    assert (Gk : exists K, flow_tri_gradient k p q r = Ok K /\ form 3 K (at_positions (map (pos_of nodes) (e_nodes e)) t) (linear g c [p; q; r]) = partial k g * (tri_area p q r * mean 3 (at_positions (map (pos_of nodes) (e_nodes e)) t))).
    { destruct k; [| |specialize (Fk eq_refl id e Hid); rewrite T, L in Fk; discriminate].
      - eexists. split; [reflexivity|]. rewrite form_scale, form_same_rows, (upright_rows p q r g c 0 Pl) by lia. unfold mean. replace (INR 3) with 3 by (cbn; ring). cbn [partial]. field.
      - eexists. split; [reflexivity|]. rewrite form_scale, form_same_rows, (upright_rows p q r g c 1 Pl) by lia. unfold mean. replace (INR 3) with 3 by (cbn; ring). cbn [partial]. field. }
    destruct Gk as (K & -> & EK). rewrite (form_ext_fields 3 K _ (at_positions (map (pos_of nodes) (e_nodes e)) t) _ (linear g c [p; q; r])) by auto. exact EK.
  - assert (L : length (e_nodes e) = 4%nat) by (rewrite (nodes_length nodes e), Ev; reflexivity). rewrite L in *. rewrite Ev in At.
    rewrite (form_ext_fields 4 _ _ (at_positions (map (pos_of nodes) (e_nodes e)) t) _ (linear g c [p; q; r; s])) by auto. unfold flow_tet_gradient. rewrite form_scale, form_same_rows.
    unfold mean. replace (INR 4) with 4 by (cbn; ring).
    destruct k; [pose proof (tet_rows p q r s g c 0 ltac:(lia)) as Ek|pose proof (tet_rows p q r s g c 1 ltac:(lia)) as Ek|pose proof (tet_rows p q r s g c 2 ltac:(lia)) as Ek]; rewrite Ek; cbn [partial coordinate]; unfold at_positions; field.
Qed.
Print Assumptions C99_gradient.

(** ** A step of the solver *)
Lemma uniform_equation n fx solve M L D nu dt c : right_solver n fx solve -> well_posed n fx (fst (velocity_equation (M, mat_vec n M (fun _ => c)) L D nu dt 0)) ->
  (forall i k, fx i = Some k -> k = c) -> (forall i, (i < n)%nat -> mat_vec n L (fun _ => c) i = 0) -> (forall i, (i < n)%nat -> mat_vec n D (fun _ => c) i = 0) ->
  forall b, (forall i, (i < n)%nat -> b i = mat_vec n M (fun _ => c) i) ->
  let E := velocity_equation (M, b) L D nu dt 0 in forall i, (i < n)%nat -> solve fx (fst E) (snd E) i = c.
Proof.
  intros Rs W F HL HD b Hb E. apply (solved n fx solve (fst E) (snd E) (fun _ => c)); [exact Rs|exact W|]. apply meets_uniform; [exact F|]. intros i Hi. unfold E, velocity_equation. cbn [fst snd]. rewrite (Hb i Hi). specialize (HL i Hi). specialize (HD i Hi). unfold mat_vec in *.
  rewrite (rsum_ext n _ (fun j => 1 / dt * (M i j * c) + (- nu * (L i j * c) + D i j * c))) by (intros; ring). rewrite !rsum_add, !rsum_scale, HL, HD. ring.
Qed.
Lemma uniform_correction n fx solve M G a p p0 c : right_solver n fx solve -> well_posed n fx M -> (forall i k, fx i = Some k -> k = c) ->
  (forall i, (i < n)%nat -> mat_vec n G (fun _ => p0) i = 0) -> (forall i, (i < n)%nat -> p i = p0) ->
  forall b, (forall i, (i < n)%nat -> b i = mat_vec n M (fun _ => c) i) ->
  forall i, (i < n)%nat -> solve fx M (fun i => b i + mat_vec n (mscale a G) p i) i = c.
Proof.
  intros Rs W F HG Hp b Hb. apply (solved n fx solve _ _ (fun _ => c)); [exact Rs|exact W|]. apply meets_uniform; [exact F|]. intros i Hi. rewrite (Hb i Hi), mat_vec_scale, (mat_vec_same n G p (fun _ => p0)) by exact Hp. rewrite HG by exact Hi. ring.
Qed.
(** A uniform stream, two dimensions: on a mesh of non-degenerate elements (ids are positions, every node in some element) with no gravity, fixed velocities those
    of the stream and all fixed pressures equal, a step with an exact solver leaves the velocities as they are and makes the pressure uniform, whatever the density,
    the viscosity, the time step and the pressure before; provided the velocity and pressure systems determine their solutions. *)
Theorem C99_uniform_stream2 : forall nodes elems solve fx density viscosity dt U V p0 s,
  let n := length (t_ids nodes) in
  flow_mesh nodes elems -> ids_are_positions nodes elems -> (forall id e, t_get elems id = Ok e -> sound_element nodes e) -> covered nodes elems ->
  (forall i k, x2_u fx i = Some k -> k = U) -> (forall i k, x2_v fx i = Some k -> k = V) -> (forall i k, x2_p fx i = Some k -> k = p0) ->
  right_solver n (x2_u fx) solve -> right_solver n (x2_v fx) solve -> right_solver n (x2_p fx) solve ->
  (forall M b L D, flow_ddt nodes elems (s2_u s) = Ok (M, b) -> flow_laplacian nodes elems = Ok L -> flow_divergence2 nodes elems (fun _ => U) (fun _ => V) dt = Ok D ->
     well_posed n (x2_u fx) (fst (velocity_equation (M, b) L D (viscosity / density) dt 0)) /\
     well_posed n (x2_v fx) (fst (velocity_equation (M, b) L D (viscosity / density) dt 0)) /\ well_posed n (x2_p fx) L) ->
  (forall i, (i < n)%nat -> s2_u s i = U /\ s2_v s i = V) ->
  exists s', cbs_step2 nodes elems solve fx density viscosity 0 0 dt s = Ok s' /\
    forall i, (i < n)%nat -> s2_u s' i = U /\ s2_v s' i = V /\ s2_p s' i = p0.
Proof.
  intros nodes elems solve fx density viscosity dt U V p0 s n M P S Cv Fu Fv Fp Ru Rv Rp W Hs.
  destruct (laplacian_flow nodes elems M S) as (L & EL & KL). destruct (gradient_flow nodes elems M CP_X) as (G1 & E1 & K1); [discriminate|]. destruct (gradient_flow nodes elems M CP_Y) as (G2 & E2 & K2); [discriminate|].
  assert (DD : forall u v, exists D, flow_divergence2 nodes elems u v dt = Ok D /\ forall c i, (i < n)%nat -> mat_vec n D (fun _ => c) i = 0).
  { intros u v. destruct (by_id_sum nodes elems M is_triangle (fun _ vs pos => match vs with [p; q; r] => Ok (flow_tri_convective dt (at_nodes pos u) (at_nodes pos v) p q r) | _ => UB end)) as (D & ED & FD).
    - intros id e He HB. destruct (triangle_shape e nodes HB) as (_ & p & q & r & ->). eauto.
    - exists D. split; [exact ED|]. intros c. eapply share_constants; [exact FD|]. intros id e K He HB EK. specialize (S id e He). unfold sound_element in S. rewrite (nodes_length nodes e).
      destruct (triangle_shape e nodes HB) as (T & p & q & r & Ev). rewrite T, Ev in S. rewrite Ev in EK |- *. injection EK as <-. now apply tri_convective_constants. }
  destruct (DD (fun _ => U) (fun _ => V)) as (D & ED & KD). 
  assert (MM : exists A, (forall u, flow_ddt nodes elems u = Ok (A, mat_vec n A u)) /\ forall x, well_posed n x A).
  { destruct (ddt_flow nodes elems M (fun _ => 0) P) as (A & EA & FA). exists A. split; [|intros x; now apply (ddt_well_posed nodes elems A x)].
    intros u. destruct (ddt_flow nodes elems M u P) as (A' & EA' & _). rewrite EA'. unfold flow_ddt in EA, EA'. destruct (flow_assemble _ _ _ _ _) as [B| |]; cbn [bind] in EA, EA'; try discriminate. injection EA as <-. injection EA' as <-. reflexivity. }
  destruct MM as (A & EA & WA). destruct (W A (mat_vec n A (s2_u s)) L D (EA _) EL ED) as (Wu & Wv & Wp). clear W DD.
  assert (E0 : flow_divergence2 nodes elems (s2_u s) (s2_v s) dt = Ok D) by (rewrite <- ED; apply divergence2_same; intros i Hi; apply Hs, Hi).
  unfold cbs_step2, velocity_field2. rewrite EA, EL, E0. cbn [bind]. rewrite EA. cbn [bind].
  set (Eu := velocity_equation (A, mat_vec n A (s2_u s)) L D (viscosity / density) dt 0). set (u := solve (x2_u fx) (fst Eu) (snd Eu)).
  assert (Hu : forall i, (i < n)%nat -> u i = U).
  { apply (uniform_equation n (x2_u fx) solve A L D (viscosity / density) dt U); auto. intros i Hi. apply mat_vec_same. intros j Hj. apply Hs, Hj. }
  assert (E0' : flow_divergence2 nodes elems u (s2_v s) dt = Ok D) by (rewrite <- ED; apply divergence2_same; [exact Hu|intros i Hi; apply Hs, Hi]). rewrite E0'. cbn [bind].
  set (Ev := velocity_equation (A, mat_vec n A (s2_v s)) L D (viscosity / density) dt 0). set (v := solve (x2_v fx) (fst Ev) (snd Ev)).
  assert (Hv : forall i, (i < n)%nat -> v i = V).
  { apply (uniform_equation n (x2_v fx) solve A L D (viscosity / density) dt V); auto. intros i Hi. apply mat_vec_same. intros j Hj. apply Hs, Hj. }
  unfold pressure_field2. rewrite EL, E1, E2. cbn [bind s2_u s2_v]. fold n. set (p := solve (x2_p fx) L _).
  assert (Hp : forall i, (i < n)%nat -> p i = p0).
  { apply (solved n (x2_p fx) solve L _ (fun _ => p0)); [exact Rp|exact Wp|]. apply meets_uniform; [exact Fp|]. intros i Hi. rewrite KL by exact Hi. rewrite (mat_vec_same n G1 u (fun _ => U)) by exact Hu. rewrite (mat_vec_same n G2 v (fun _ => V)) by exact Hv. rewrite K1, K2 by exact Hi. ring. }
  unfold correct_field2. cbn [s2_u s2_v s2_p]. rewrite !EA, E1, E2. cbn [bind fst snd]. fold n. eexists. split; [reflexivity|]. intros i Hi. cbn [s2_u s2_v s2_p]. split; [|split; [|now apply Hp]].
  - apply (uniform_correction n (x2_u fx) solve A G1 (- dt / density) p p0 U); auto. intros k Hk. apply mat_vec_same, Hu.
  - apply (uniform_correction n (x2_v fx) solve A G2 (- dt / density) p p0 V); auto. intros k Hk. apply mat_vec_same, Hv.
Qed.
Print Assumptions C99_uniform_stream2.
(** Three dimensions, on meshes without triangles. *)
Theorem C99_uniform_stream3 : forall nodes elems solve fx density viscosity dt U V W p0 s,
  let n := length (t_ids nodes) in
  flow_mesh nodes elems -> ids_are_positions nodes elems -> (forall id e, t_get elems id = Ok e -> sound_element nodes e) -> covered nodes elems ->
  (forall id e, t_get elems id = Ok e -> is_triangle (e_type e) (length (e_nodes e)) = false) ->
  (forall i k, x3_u fx i = Some k -> k = U) -> (forall i k, x3_v fx i = Some k -> k = V) -> (forall i k, x3_w fx i = Some k -> k = W) -> (forall i k, x3_p fx i = Some k -> k = p0) ->
  right_solver n (x3_u fx) solve -> right_solver n (x3_v fx) solve -> right_solver n (x3_w fx) solve -> right_solver n (x3_p fx) solve ->
  (forall M b L D, flow_ddt nodes elems (s3_u s) = Ok (M, b) -> flow_laplacian nodes elems = Ok L -> flow_divergence3 nodes elems (fun _ => U) (fun _ => V) (fun _ => W) dt = Ok D ->
     let E := fst (velocity_equation (M, b) L D (viscosity / density) dt 0) in
     well_posed n (x3_u fx) E /\ well_posed n (x3_v fx) E /\ well_posed n (x3_w fx) E /\ well_posed n (x3_p fx) L) ->
  (forall i, (i < n)%nat -> s3_u s i = U /\ s3_v s i = V /\ s3_w s i = W) ->
  exists s', cbs_step3 nodes elems solve fx density viscosity 0 0 0 dt s = Ok s' /\
    forall i, (i < n)%nat -> s3_u s' i = U /\ s3_v s' i = V /\ s3_w s' i = W /\ s3_p s' i = p0.
Proof.
  intros nodes elems solve fx density viscosity dt U V Wz p0 s n M P S Cv NT Fu Fv Fw Fp Ru Rv Rw Rp W Hs.
  destruct (laplacian_flow nodes elems M S) as (L & EL & KL). destruct (gradient_flow nodes elems M CP_X) as (G1 & E1 & K1); [discriminate|]. destruct (gradient_flow nodes elems M CP_Y) as (G2 & E2 & K2); [discriminate|]. destruct (gradient_flow nodes elems M CP_Z) as (G3 & E3 & K3); [intros _; exact NT|].
  assert (DD : exists D, flow_divergence3 nodes elems (fun _ => U) (fun _ => V) (fun _ => Wz) dt = Ok D /\ forall c i, (i < n)%nat -> mat_vec n D (fun _ => c) i = 0).
  { destruct (by_id_sum nodes elems M is_tetrahedron (fun _ vs pos => match vs with [p; q; r; s] => Ok (flow_tet_convective dt (at_nodes pos (fun _ => U)) (at_nodes pos (fun _ => V)) (at_nodes pos (fun _ => Wz)) p q r s) | _ => UB end)) as (D & ED & FD).
    - intros id e He HB. destruct (tetrahedron_shape e nodes HB) as (_ & p & q & r & x & ->). eauto.
    - exists D. split; [exact ED|]. intros c. eapply share_constants; [exact FD|]. intros id e K He HB EK. specialize (S id e He). unfold sound_element in S. rewrite (nodes_length nodes e).
      destruct (tetrahedron_shape e nodes HB) as (T & p & q & r & x & Ev). rewrite T, Ev in S. rewrite Ev in EK |- *. injection EK as <-. now apply tet_convective_constants. }
  destruct DD as (D & ED & KD).
  assert (MM : exists A, (forall u, flow_ddt nodes elems u = Ok (A, mat_vec n A u)) /\ forall x, well_posed n x A).
  { destruct (ddt_flow nodes elems M (fun _ => 0) P) as (A & EA & FA). exists A. split; [|intros x; now apply (ddt_well_posed nodes elems A x)].
    intros u. destruct (ddt_flow nodes elems M u P) as (A' & EA' & _). rewrite EA'. unfold flow_ddt in EA, EA'. destruct (flow_assemble _ _ _ _ _) as [B| |]; cbn [bind] in EA, EA'; try discriminate. injection EA as <-. injection EA' as <-. reflexivity. }
  destruct MM as (A & EA & WA). destruct (W A (mat_vec n A (s3_u s)) L D (EA _) EL ED) as (Wu & Wv & Ww & Wp). clear W.
  unfold cbs_step3, velocity_field3. replace (0 / density) with 0 by (unfold Rdiv; ring). rewrite EL. cbn [bind]. rewrite EA. cbn [bind].
  rewrite (divergence3_same nodes elems (s3_u s) (s3_v s) (s3_w s) (fun _ => U) (fun _ => V) (fun _ => Wz) dt) by (intros i Hi; apply Hs, Hi). rewrite ED. cbn [bind]. rewrite EA. cbn [bind].
  set (Eu := velocity_equation (A, mat_vec n A (s3_u s)) L D (viscosity / density) dt 0). set (u := solve (x3_u fx) (fst Eu) (snd Eu)).
  assert (Hu : forall i, (i < n)%nat -> u i = U).
  { apply (uniform_equation n (x3_u fx) solve A L D (viscosity / density) dt U); auto. intros i Hi. apply mat_vec_same. intros j Hj. apply Hs, Hj. }
  rewrite (divergence3_same nodes elems u (s3_v s) (s3_w s) (fun _ => U) (fun _ => V) (fun _ => Wz) dt) by (try exact Hu; intros i Hi; apply Hs, Hi). rewrite ED. cbn [bind]. rewrite EA. cbn [bind].
  set (Ev := velocity_equation (A, mat_vec n A (s3_v s)) L D (viscosity / density) dt 0). set (v := solve (x3_v fx) (fst Ev) (snd Ev)).
  assert (Hv : forall i, (i < n)%nat -> v i = V).
  { apply (uniform_equation n (x3_v fx) solve A L D (viscosity / density) dt V); auto. intros i Hi. apply mat_vec_same. intros j Hj. apply Hs, Hj. }
  rewrite (divergence3_same nodes elems u v (s3_w s) (fun _ => U) (fun _ => V) (fun _ => Wz) dt) by (try exact Hu; try exact Hv; intros i Hi; apply Hs, Hi). rewrite ED. cbn [bind].
  set (Ew := velocity_equation (A, mat_vec n A (s3_w s)) L D (viscosity / density) dt 0). set (w := solve (x3_w fx) (fst Ew) (snd Ew)).
  assert (Hw : forall i, (i < n)%nat -> w i = Wz).
  { apply (uniform_equation n (x3_w fx) solve A L D (viscosity / density) dt Wz); auto. intros i Hi. apply mat_vec_same. intros j Hj. apply Hs, Hj. }
  unfold pressure_field3. rewrite EL, E1, E2, E3. cbn [bind s3_u s3_v s3_w]. fold n. set (p := solve (x3_p fx) L _).
  assert (Hp : forall i, (i < n)%nat -> p i = p0).
  { apply (solved n (x3_p fx) solve L _ (fun _ => p0)); [exact Rp|exact Wp|]. apply meets_uniform; [exact Fp|]. intros i Hi. rewrite KL by exact Hi. rewrite (mat_vec_same n G1 u (fun _ => U)) by exact Hu. rewrite (mat_vec_same n G2 v (fun _ => V)) by exact Hv. rewrite (mat_vec_same n G3 w (fun _ => Wz)) by exact Hw. rewrite K1, K2, K3 by exact Hi. ring. }
  unfold correct_field3. cbn [s3_u s3_v s3_w s3_p]. rewrite !EA, E1, E2, E3. cbn [bind fst snd]. fold n. eexists. split; [reflexivity|]. intros i Hi. cbn [s3_u s3_v s3_w s3_p]. split; [|split; [|split; [|now apply Hp]]].
  - apply (uniform_correction n (x3_u fx) solve A G1 (- dt / density) p p0 U); auto. intros k Hk. apply mat_vec_same, Hu.
  - apply (uniform_correction n (x3_v fx) solve A G2 (- dt / density) p p0 V); auto. intros k Hk. apply mat_vec_same, Hv.
  - apply (uniform_correction n (x3_w fx) solve A G3 (- dt / density) p p0 Wz); auto. intros k Hk. apply mat_vec_same, Hw.
Qed.
Print Assumptions C99_uniform_stream3.

(** ** What a step solves *)
(** Values are the fixed ones where there are such, elsewhere the equation holds. *)
Definition holds (n : nat) (fx : nat -> option R) (x : nat -> R) (equation : nat -> Prop) : Prop :=
  forall i, (i < n)%nat -> match fx i with Some c => x i = c | None => equation i end.
Lemma velocity_solved n fx solve M L D nu dt g a x : dt <> 0 -> right_solver n fx solve -> well_posed n fx (fst (velocity_equation (M, mat_vec n M a) L D nu dt g)) ->
  holds n fx x (fun i => (mat_vec n M x i - mat_vec n M a i) / dt + mat_vec n D x i = nu * mat_vec n L x i + g) ->
  let E := velocity_equation (M, mat_vec n M a) L D nu dt g in forall i, (i < n)%nat -> solve fx (fst E) (snd E) i = x i.
Proof.
  intros Hdt Rs W H E. apply (solved n fx solve (fst E) (snd E) x); [exact Rs|exact W|]. intros i Hi. specialize (H i Hi). cbv beta in H. destruct (fx i); [exact H|].
  unfold E, velocity_equation. cbn [fst snd]. rewrite (rsum_ext n _ (fun j => 1 / dt * (M i j * x j) + (- nu * (L i j * x j) + D i j * x j))) by (intros; ring). rewrite !rsum_add, !rsum_scale.
  fold (mat_vec n M x i). fold (mat_vec n L x i). fold (mat_vec n D x i). unfold Rdiv in *. lra.
Qed.
Lemma correction_solved n fx solve M G dt density p p' a a' x : right_solver n fx solve -> well_posed n fx M ->
  (forall i, (i < n)%nat -> p' i = p i) -> (forall i, (i < n)%nat -> a' i = a i) ->
  holds n fx x (fun i => mat_vec n M x i - mat_vec n M a i = - (dt / density) * mat_vec n G p i) ->
  forall i, (i < n)%nat -> solve fx M (fun i => mat_vec n M a' i + mat_vec n (mscale (- dt / density) G) p' i) i = x i.
Proof.
  intros Rs W Hp Ha H. apply (solved n fx solve _ _ x); [exact Rs|exact W|]. intros i Hi. specialize (H i Hi). cbv beta in H. destruct (fx i); [exact H|]. fold (mat_vec n M x i).
  rewrite mat_vec_scale, (mat_vec_same n G p' p i Hp), (mat_vec_same n M a' a i Ha). unfold Rdiv in *. lra.
Qed.
Lemma storage_flow nodes elems : flow_mesh nodes elems -> ids_are_positions nodes elems -> forall a M b, flow_ddt nodes elems a = Ok (M, b) ->
  forall u, flow_ddt nodes elems u = Ok (M, mat_vec (length (t_ids nodes)) M u).
Proof.
  intros Me P a M b E u. destruct (ddt_flow nodes elems Me u P) as (A & EA & _). rewrite EA. unfold flow_ddt in E, EA. destruct (flow_assemble _ _ _ _ _) as [B| |]; cbn [bind] in E, EA; try discriminate.
  injection E as <- _. injection EA as <-. reflexivity.
Qed.
(** With M, L, D, G the matrices of storage, diffusion, convection and gradient: if u1, v1 have the fixed values or balance storage and convection against viscosity
    and gravity - u1 carried by the old velocity, v1 by the new u1 and the old v -, if p has the fixed values or L p is the divergence of (u1, v1) by the time step, and if u2, v2 have
    the fixed values or differ from u1, v1 by the gradient of p times time step by density, then these are what a step with an exact solver gives (the systems being uniquely solvable). *)
Theorem C99_balance2 : forall nodes elems solve fx density viscosity gx gy dt s M b L D D' G1 G2 u1 v1 p u2 v2,
  let n := length (t_ids nodes) in let nu := viscosity / density in
  flow_mesh nodes elems -> ids_are_positions nodes elems -> (forall id e, t_get elems id = Ok e -> sound_element nodes e) -> covered nodes elems -> dt <> 0 ->
  right_solver n (x2_u fx) solve -> right_solver n (x2_v fx) solve -> right_solver n (x2_p fx) solve ->
  flow_ddt nodes elems (s2_u s) = Ok (M, b) -> flow_laplacian nodes elems = Ok L -> flow_gradient nodes elems CP_X = Ok G1 -> flow_gradient nodes elems CP_Y = Ok G2 ->
  flow_divergence2 nodes elems (s2_u s) (s2_v s) dt = Ok D -> flow_divergence2 nodes elems u1 (s2_v s) dt = Ok D' ->
  well_posed n (x2_u fx) (fun i j => M i j / dt + D i j - nu * L i j) -> well_posed n (x2_v fx) (fun i j => M i j / dt + D' i j - nu * L i j) -> well_posed n (x2_p fx) L ->
  holds n (x2_u fx) u1 (fun i => (mat_vec n M u1 i - mat_vec n M (s2_u s) i) / dt + mat_vec n D u1 i = nu * mat_vec n L u1 i + gx) ->
  holds n (x2_v fx) v1 (fun i => (mat_vec n M v1 i - mat_vec n M (s2_v s) i) / dt + mat_vec n D' v1 i = nu * mat_vec n L v1 i + gy) ->
  holds n (x2_p fx) p (fun i => mat_vec n L p i = (mat_vec n G1 u1 i + mat_vec n G2 v1 i) / dt) ->
  holds n (x2_u fx) u2 (fun i => mat_vec n M u2 i - mat_vec n M u1 i = - (dt / density) * mat_vec n G1 p i) ->
  holds n (x2_v fx) v2 (fun i => mat_vec n M v2 i - mat_vec n M v1 i = - (dt / density) * mat_vec n G2 p i) ->
  exists s', cbs_step2 nodes elems solve fx density viscosity gx gy dt s = Ok s' /\
    forall i, (i < n)%nat -> s2_u s' i = u2 i /\ s2_v s' i = v2 i /\ s2_p s' i = p i.
Proof.
  intros nodes elems solve fx density viscosity gx gy dt s M b L D D' G1 G2 u1 v1 p u2 v2 n nu Me P S Cv Hdt Ru Rv Rp EM EL E1 E2 ED ED' Wu Wv Wp H1 H2 H3 H4 H5.
  pose proof (storage_flow nodes elems Me P _ _ _ EM) as EA. fold n in EA.
  assert (WA : forall x, well_posed n x M).
  { destruct (ddt_flow nodes elems Me (s2_u s) P) as (A & EA' & FA). rewrite EM in EA'. injection EA' as <- _. intros x. now apply (ddt_well_posed nodes elems M x). }
  assert (W' : forall fx D a g, well_posed n fx (fun i j => M i j / dt + D i j - nu * L i j) -> well_posed n fx (fst (velocity_equation (M, mat_vec n M a) L D nu dt g))).
  { intros f D0 a g W y Hy. apply W. intros i Hi. specialize (Hy i Hi). destruct (f i); [exact Hy|]. rewrite <- Hy. apply rsum_ext. intros j _. unfold velocity_equation. cbn [fst]. unfold Rdiv. ring. }
  unfold cbs_step2, velocity_field2. rewrite !EA, EL, ED. cbn [bind]. fold nu.
  set (Eu := velocity_equation (M, mat_vec n M (s2_u s)) L D nu dt gx). set (u := solve (x2_u fx) (fst Eu) (snd Eu)).
  assert (Hu : forall i, (i < n)%nat -> u i = u1 i) by (apply (velocity_solved n (x2_u fx) solve M L D nu dt gx (s2_u s) u1); auto).
  rewrite (divergence2_same nodes elems u (s2_v s) u1 (s2_v s) dt) by auto. rewrite ED'. cbn [bind].
  set (Ev := velocity_equation (M, mat_vec n M (s2_v s)) L D' nu dt gy). set (v := solve (x2_v fx) (fst Ev) (snd Ev)).
  assert (Hv : forall i, (i < n)%nat -> v i = v1 i) by (apply (velocity_solved n (x2_v fx) solve M L D' nu dt gy (s2_v s) v1); auto).
  unfold pressure_field2. rewrite EL, E1, E2. cbn [bind s2_u s2_v]. fold n. set (q := solve (x2_p fx) L _).
  assert (Hp : forall i, (i < n)%nat -> q i = p i).
  { apply (solved n (x2_p fx) solve L _ p); [exact Rp|exact Wp|]. intros i Hi. specialize (H3 i Hi). cbv beta in H3. destruct (x2_p fx i); [exact H3|]. fold (mat_vec n L p i).
    rewrite (mat_vec_same n G1 u u1 i Hu), (mat_vec_same n G2 v v1 i Hv), H3. unfold Rdiv. ring. }
  unfold correct_field2. cbn [s2_u s2_v s2_p]. rewrite !EA, E1, E2. cbn [bind fst snd]. fold n. eexists. split; [reflexivity|]. intros i Hi. cbn [s2_u s2_v s2_p]. split; [|split; [|now apply Hp]].
  - now apply (correction_solved n (x2_u fx) solve M G1 dt density p q u1 u u2).
  - now apply (correction_solved n (x2_v fx) solve M G2 dt density p q v1 v v2).
Qed.
Print Assumptions C99_balance2.
(** Three dimensions; gravity is divided by the density. *)
Theorem C99_balance3 : forall nodes elems solve fx density viscosity gx gy gz dt s M b L D D' D'' G1 G2 G3 u1 v1 w1 p u2 v2 w2,
  let n := length (t_ids nodes) in let nu := viscosity / density in
  flow_mesh nodes elems -> ids_are_positions nodes elems -> (forall id e, t_get elems id = Ok e -> sound_element nodes e) -> covered nodes elems -> dt <> 0 ->
  right_solver n (x3_u fx) solve -> right_solver n (x3_v fx) solve -> right_solver n (x3_w fx) solve -> right_solver n (x3_p fx) solve ->
  flow_ddt nodes elems (s3_u s) = Ok (M, b) -> flow_laplacian nodes elems = Ok L ->
  flow_gradient nodes elems CP_X = Ok G1 -> flow_gradient nodes elems CP_Y = Ok G2 -> flow_gradient nodes elems CP_Z = Ok G3 ->
  flow_divergence3 nodes elems (s3_u s) (s3_v s) (s3_w s) dt = Ok D -> flow_divergence3 nodes elems u1 (s3_v s) (s3_w s) dt = Ok D' -> flow_divergence3 nodes elems u1 v1 (s3_w s) dt = Ok D'' ->
  well_posed n (x3_u fx) (fun i j => M i j / dt + D i j - nu * L i j) -> well_posed n (x3_v fx) (fun i j => M i j / dt + D' i j - nu * L i j) ->
  well_posed n (x3_w fx) (fun i j => M i j / dt + D'' i j - nu * L i j) -> well_posed n (x3_p fx) L ->
  holds n (x3_u fx) u1 (fun i => (mat_vec n M u1 i - mat_vec n M (s3_u s) i) / dt + mat_vec n D u1 i = nu * mat_vec n L u1 i + gx / density) ->
  holds n (x3_v fx) v1 (fun i => (mat_vec n M v1 i - mat_vec n M (s3_v s) i) / dt + mat_vec n D' v1 i = nu * mat_vec n L v1 i + gy / density) ->
  holds n (x3_w fx) w1 (fun i => (mat_vec n M w1 i - mat_vec n M (s3_w s) i) / dt + mat_vec n D'' w1 i = nu * mat_vec n L w1 i + gz / density) ->
  holds n (x3_p fx) p (fun i => mat_vec n L p i = (mat_vec n G1 u1 i + mat_vec n G2 v1 i + mat_vec n G3 w1 i) / dt) ->
  holds n (x3_u fx) u2 (fun i => mat_vec n M u2 i - mat_vec n M u1 i = - (dt / density) * mat_vec n G1 p i) ->
  holds n (x3_v fx) v2 (fun i => mat_vec n M v2 i - mat_vec n M v1 i = - (dt / density) * mat_vec n G2 p i) ->
  holds n (x3_w fx) w2 (fun i => mat_vec n M w2 i - mat_vec n M w1 i = - (dt / density) * mat_vec n G3 p i) ->
  exists s', cbs_step3 nodes elems solve fx density viscosity gx gy gz dt s = Ok s' /\
    forall i, (i < n)%nat -> s3_u s' i = u2 i /\ s3_v s' i = v2 i /\ s3_w s' i = w2 i /\ s3_p s' i = p i.
Proof.
  intros nodes elems solve fx density viscosity gx gy gz dt s M b L D D' D'' G1 G2 G3 u1 v1 w1 p u2 v2 w2 n nu Me P S Cv Hdt Ru Rv Rw Rp EM EL E1 E2 E3 ED ED' ED'' Wu Wv Ww Wp H1 H2 H2' H3 H4 H5 H6.
  pose proof (storage_flow nodes elems Me P _ _ _ EM) as EA. fold n in EA.
  assert (WA : forall x, well_posed n x M).
  { destruct (ddt_flow nodes elems Me (s3_u s) P) as (A & EA' & FA). rewrite EM in EA'. injection EA' as <- _. intros x. now apply (ddt_well_posed nodes elems M x). }
  assert (W' : forall fx D a g, well_posed n fx (fun i j => M i j / dt + D i j - nu * L i j) -> well_posed n fx (fst (velocity_equation (M, mat_vec n M a) L D nu dt g))).
  { intros f D0 a g W y Hy. apply W. intros i Hi. specialize (Hy i Hi). destruct (f i); [exact Hy|]. rewrite <- Hy. apply rsum_ext. intros j _. unfold velocity_equation. cbn [fst]. unfold Rdiv. ring. }
  unfold cbs_step3, velocity_field3. rewrite !EA, EL, ED. cbn [bind]. fold nu.
  set (Eu := velocity_equation (M, mat_vec n M (s3_u s)) L D nu dt (gx / density)). set (u := solve (x3_u fx) (fst Eu) (snd Eu)).
  assert (Hu : forall i, (i < n)%nat -> u i = u1 i) by (apply (velocity_solved n (x3_u fx) solve M L D nu dt (gx / density) (s3_u s) u1); auto).
  rewrite (divergence3_same nodes elems u (s3_v s) (s3_w s) u1 (s3_v s) (s3_w s) dt) by auto. rewrite ED'. cbn [bind].
  set (Ev := velocity_equation (M, mat_vec n M (s3_v s)) L D' nu dt (gy / density)). set (v := solve (x3_v fx) (fst Ev) (snd Ev)).
  assert (Hv : forall i, (i < n)%nat -> v i = v1 i) by (apply (velocity_solved n (x3_v fx) solve M L D' nu dt (gy / density) (s3_v s) v1); auto).
  rewrite (divergence3_same nodes elems u v (s3_w s) u1 v1 (s3_w s) dt) by auto. rewrite ED''. cbn [bind].
  set (Ew := velocity_equation (M, mat_vec n M (s3_w s)) L D'' nu dt (gz / density)). set (w := solve (x3_w fx) (fst Ew) (snd Ew)).
  assert (Hw : forall i, (i < n)%nat -> w i = w1 i) by (apply (velocity_solved n (x3_w fx) solve M L D'' nu dt (gz / density) (s3_w s) w1); auto).
  unfold pressure_field3. rewrite EL, E1, E2, E3. cbn [bind s3_u s3_v s3_w]. fold n. set (q := solve (x3_p fx) L _).
  assert (Hp : forall i, (i < n)%nat -> q i = p i).
  { apply (solved n (x3_p fx) solve L _ p); [exact Rp|exact Wp|]. intros i Hi. specialize (H3 i Hi). cbv beta in H3. destruct (x3_p fx i); [exact H3|]. fold (mat_vec n L p i).
    rewrite (mat_vec_same n G1 u u1 i Hu), (mat_vec_same n G2 v v1 i Hv), (mat_vec_same n G3 w w1 i Hw), H3. unfold Rdiv. ring. }
  unfold correct_field3. cbn [s3_u s3_v s3_w s3_p]. rewrite !EA, E1, E2, E3. cbn [bind fst snd]. fold n. eexists. split; [reflexivity|]. intros i Hi. cbn [s3_u s3_v s3_w s3_p]. split; [|split; [|split; [|now apply Hp]]].
  - now apply (correction_solved n (x3_u fx) solve M G1 dt density p q u1 u u2).
  - now apply (correction_solved n (x3_v fx) solve M G2 dt density p q v1 v v2).
  - now apply (correction_solved n (x3_w fx) solve M G3 dt density p q w1 w w2).
Qed.
Print Assumptions C99_balance3.

(** ** Concrete meshes *)
Definition corner_nodes : table pt := table_of [P 0 0 0; P 1 0 0; P 0 1 0].
Definition corner_elems : table element := table_of [tri 0 1 2].
Lemma corner_upright : upright (P 0 0 0) (P 1 0 0) (P 0 1 0). Proof. unfold upright. cbn [px py pz]. repeat split; lra. Qed.
Lemma corner_half : tri_area (P 0 0 0) (P 1 0 0) (P 0 1 0) = 1 / 2. Proof. destruct (upright_area _ _ _ corner_upright) as [-> _]. cbn [px py]. field. Qed.
Lemma corner_mesh : flow_mesh corner_nodes corner_elems /\ ids_are_positions corner_nodes corner_elems /\ (forall id e, t_get corner_elems id = Ok e -> e = tri 0 1 2) /\ covered corner_nodes corner_elems.
Proof.
  pose proof (table_of_wf [P 0 0 0; P 1 0 0; P 0 1 0]) as [WN [IN _]]. pose proof (table_of_wf [tri 0 1 2]) as [WE _].
  assert (C : forall id e, t_get corner_elems id = Ok e -> e = tri 0 1 2).
  { intros id e H. assert (Hi : In id (t_ids corner_elems)) by (eapply wf_get_in; eauto). cbn in Hi. destruct Hi as [<-|[]]; cbn in H; injection H as <-; auto. }
  split; [|split; [split; reflexivity|split; [exact C|]]].
  - split; [exact WN|exact IN|exact WE|]. intros id e H. rewrite (C id e H). cbn. repeat (apply List.Forall_cons; [cbn; tauto|]); apply List.Forall_nil.
  - intros i Hi. cbn in Hi. exists 0%Z, (tri 0 1 2). split; [reflexivity|]. split; [now left|]. split; [reflexivity|]. change (In i [0; 1; 2]%nat). cbn. lia.
Qed.
(** The solver for one free unknown. *)
Definition one_free : solver := fun fx A b i => match fx i with Some c => c | None => (b i - rsum 3 (fun j => match fx j with Some c => A i j * c | None => 0 end)) / A i i end.
Definition all_but (k : nat) (c : nat -> R) : nat -> option R := fun i => if Nat.eqb i k then None else Some (c i).
Lemma one_row k (A : rmat) (x : nat -> R) : (k < 3)%nat -> rsum 3 (fun j => A k j * x j) = A k k * x k + rsum 3 (fun j => if Nat.eqb j k then 0 else A k j * x j).
Proof. intros Hk. destruct k as [|[|[|k]]]; [| | |lia]; cbn [rsum Nat.eqb]; ring. Qed.
Lemma one_free_right k c : (k < 3)%nat -> right_solver 3 (all_but k c) one_free.
Proof.
  intros Hk A b x Mx Ux i Hi. unfold one_free, all_but. destruct (Nat.eqb_spec i k) as [->|N].
  2:{ specialize (Mx i Hi). unfold all_but in Mx. destruct (Nat.eqb_spec i k); [easy|]. auto. }
  assert (Ek : rsum 3 (fun j => A k j * x j) = b k) by (specialize (Mx k Hk); unfold all_but in Mx; rewrite Nat.eqb_refl in Mx; exact Mx).
  assert (Ex : rsum 3 (fun j => match (if Nat.eqb j k then None else Some (c j)) with Some d => A k j * d | None => 0 end) = rsum 3 (fun j => if Nat.eqb j k then 0 else A k j * x j)).
  { apply rsum_ext. intros j Hj. specialize (Mx j Hj). unfold all_but in Mx. destruct (Nat.eqb j k); [reflexivity|]. now rewrite Mx. }
  rewrite Ex. rewrite (one_row k A x Hk) in Ek.
  assert (Nz : A k k <> 0).
  { intros Z. assert (Y : x k + 1 = x k); [|lra]. pose (y := fun j => if Nat.eqb j k then x k + 1 else x j). assert (y k = x k + 1) as <- by (unfold y; now rewrite Nat.eqb_refl). apply Ux; [|exact Hk]. intros j Hj. specialize (Mx j Hj). unfold all_but in *. destruct (Nat.eqb_spec j k) as [Ej|Nj]; [rewrite Ej in *|].
    - rewrite (one_row k A y Hk), Z. rewrite Z in Ek. rewrite (rsum_ext 3 _ (fun j => if Nat.eqb j k then 0 else A k j * x j)); [lra|]. intros m Hm. unfold y. destruct (Nat.eqb m k); reflexivity.
    - unfold y. destruct (Nat.eqb_spec j k); [easy|exact Mx]. }
  apply (Rmult_eq_reg_l (A k k)); [|exact Nz]. field_simplify; [|exact Nz]. lra.
Qed.
Lemma one_posed k c A : (k < 3)%nat -> A k k <> 0 -> well_posed 3 (all_but k c) A.
Proof.
  intros Hk Nz y Hy. assert (O : forall j, (j < 3)%nat -> j <> k -> y j = 0) by (intros j Hj Nj; specialize (Hy j Hj); unfold all_but in Hy; destruct (Nat.eqb_spec j k); [easy|exact Hy]).
  assert (Yk : y k = 0). { pose proof (Hy k Hk) as E. unfold all_but in E. rewrite Nat.eqb_refl, one_row in E by exact Hk. rewrite (rsum_zero 3) in E; [|intros j Hj; destruct (Nat.eqb_spec j k); [reflexivity|rewrite (O j Hj n); ring]]. apply (Rmult_eq_reg_l (A k k)); [lra|exact Nz]. }
  intros i Hi. destruct (Nat.eq_dec i k) as [->|N]; auto.
Qed.
Lemma corner_stamp K i j : (i < 3)%nat -> (j < 3)%nat -> stamp [0; 1; 2]%nat K (fun _ _ => 0) i j = K i j.
Proof. intros Hi Hj. destruct i as [|[|[|i]]]; try lia; destruct j as [|[|[|j]]]; try lia; unfold stamp, add_at; cbn -[Rplus]; ring. Qed.
Lemma corner_ddt u : flow_ddt corner_nodes corner_elems u = Ok (let A := stamp [0; 1; 2]%nat (tri_ddt 1 (P 0 0 0) (P 1 0 0) (P 0 1 0)) (fun _ _ => 0) in (A, mat_vec 3 A u)). Proof. reflexivity. Qed.
Lemma corner_laplacian : flow_laplacian corner_nodes corner_elems = Ok (stamp [0; 1; 2]%nat (tri_laplacian 1 (P 0 0 0) (P 1 0 0) (P 0 1 0)) (fun _ _ => 0)). Proof. reflexivity. Qed.
Lemma corner_divergence u v dt : flow_divergence2 corner_nodes corner_elems u v dt = Ok (stamp [0; 1; 2]%nat (flow_tri_convective dt (at_nodes [0; 1; 2]%nat u) (at_nodes [0; 1; 2]%nat v) (P 0 0 0) (P 1 0 0) (P 0 1 0)) (fun _ _ => 0)). Proof. reflexivity. Qed.
Lemma corner_gradient k G : flow_tri_gradient k (P 0 0 0) (P 1 0 0) (P 0 1 0) = Ok G -> flow_gradient corner_nodes corner_elems k = Ok (stamp [0; 1; 2]%nat G (fun _ _ => 0)).
Proof. intros E. unfold flow_gradient, flow_assemble. change (zrange (length (t_ids corner_elems))) with [0%Z]. cbn -[flow_tri_gradient stamp]. rewrite E. reflexivity. Qed.
Lemma corner_M i j : (i < 3)%nat -> (j < 3)%nat -> tri_ddt 1 (P 0 0 0) (P 1 0 0) (P 0 1 0) i j = if Nat.eqb i j then 1 / 12 else 1 / 24.
Proof. intros Hi Hj. unfold tri_ddt. rewrite per_dt_pos by lra. unfold mscale. rewrite corner_half. destruct i as [|[|[|i]]]; try lia; destruct j as [|[|[|j]]]; try lia; unfold of_rows; cbn [nth Nat.eqb]; field. Qed.
Lemma corner_B k j : (k < 2)%nat -> (j < 3)%nat -> tri_B (P 0 0 0) (P 1 0 0) (P 0 1 0) k j = of_rows [[-1; 1; 0]; [-1; 0; 1]] k j.
Proof. intros Hk Hj. rewrite (upright_B _ _ _ corner_upright). destruct k as [|[|k]]; try lia; destruct j as [|[|[|j]]]; try lia; unfold of_rows; cbn [nth px py]; ring. Qed.
Lemma corner_L i j : (i < 3)%nat -> (j < 3)%nat -> tri_laplacian 1 (P 0 0 0) (P 1 0 0) (P 0 1 0) i j = of_rows [[-1; 1 / 2; 1 / 2]; [1 / 2; - (1 / 2); 0]; [1 / 2; 0; - (1 / 2)]] i j.
Proof.
  intros Hi Hj. rewrite tri_laplacian_eq by (rewrite corner_half; lra). unfold mscale, minus_BtB. rewrite corner_half. cbn [rsum]. rewrite !corner_B by lia.
  destruct i as [|[|[|i]]]; try lia; destruct j as [|[|[|j]]]; try lia; unfold of_rows; cbn [nth]; field.
Qed.
(** The hypotheses hold on one triangle with velocities and pressure fixed at two corners; the convective matrix is not zero. *)
Example C99_case : let fx := Fixed2 (all_but 2 (fun _ => 1)) (all_but 2 (fun _ => 0)) (all_but 2 (fun _ => 5)) in
  flow_mesh corner_nodes corner_elems /\ ids_are_positions corner_nodes corner_elems /\ covered corner_nodes corner_elems /\
  (forall id e, t_get corner_elems id = Ok e -> sound_element corner_nodes e /\ plain_element corner_nodes e) /\
  (exists s', cbs_step2 corner_nodes corner_elems one_free fx 2 3 0 0 1 (Stream2 (fun _ => 1) (fun _ => 0) (fun _ => 7)) = Ok s' /\
     forall i, (i < 3)%nat -> s2_u s' i = 1 /\ s2_v s' i = 0 /\ s2_p s' i = 5) /\
  (exists D, flow_divergence2 corner_nodes corner_elems (fun _ => 1) (fun _ => 0) 1 = Ok D /\ D 0%nat 0%nat = - (2 / 3)) /\
  0 < tet_volume (P 1 0 0) (P 0 1 0) (P 0 0 1) (P 0 0 0).
Proof.
  intros fx. destruct corner_mesh as (M & P & C & Cv). split; [exact M|]. split; [exact P|]. split; [exact Cv|].
  assert (Sd : forall id e, t_get corner_elems id = Ok e -> sound_element corner_nodes e /\ plain_element corner_nodes e).
  { intros id e H. rewrite (C id e H). split; [change (0 < tri_area (Fem_Model.P 0 0 0) (Fem_Model.P 1 0 0) (Fem_Model.P 0 1 0)); rewrite corner_half; lra|exact corner_upright]. }
  split; [exact Sd|]. split; [|split].
  - apply (C99_uniform_stream2 corner_nodes corner_elems one_free fx 2 3 1 1 0 5); auto.
    + intros id e H. apply (Sd id e H).
    + intros i k. cbn. unfold all_but. destruct (Nat.eqb i 2); [discriminate|congruence].
    + intros i k. cbn. unfold all_but. destruct (Nat.eqb i 2); [discriminate|congruence].
    + intros i k. cbn. unfold all_but. destruct (Nat.eqb i 2); [discriminate|congruence].
    + apply one_free_right. lia.
    + apply one_free_right. lia.
    + apply one_free_right. lia.
    + intros A b L D EA EL ED. rewrite corner_ddt in EA. rewrite corner_laplacian in EL. rewrite corner_divergence in ED. injection EA as <- <-. injection EL as <-. injection ED as <-.
      assert (Z : fst (velocity_equation (stamp [0; 1; 2]%nat (tri_ddt 1 (Fem_Model.P 0 0 0) (Fem_Model.P 1 0 0) (Fem_Model.P 0 1 0)) (fun _ _ => 0), fun _ => 0) (stamp [0; 1; 2]%nat (tri_laplacian 1 (Fem_Model.P 0 0 0) (Fem_Model.P 1 0 0) (Fem_Model.P 0 1 0)) (fun _ _ => 0)) (stamp [0; 1; 2]%nat (flow_tri_convective 1 (at_nodes [0; 1; 2]%nat (fun _ => 1)) (at_nodes [0; 1; 2]%nat (fun _ => 0)) (Fem_Model.P 0 0 0) (Fem_Model.P 1 0 0) (Fem_Model.P 0 1 0)) (fun _ _ => 0)) (3 / 2) 1 0) 2%nat 2%nat <> 0).
      { unfold velocity_equation. cbn [fst]. rewrite !corner_stamp by lia. rewrite corner_M, corner_L by lia. unfold flow_tri_convective, mscale, rows_product, at_nodes. rewrite !corner_B by lia. rewrite corner_half. unfold of_rows. cbn [nth Nat.eqb]. lra. }
      repeat split; apply one_posed; try lia; try exact Z. rewrite corner_stamp, corner_L by lia. unfold of_rows. cbn [nth]. lra.
  - eexists. split; [apply corner_divergence|]. rewrite corner_stamp by lia. unfold flow_tri_convective, mscale, rows_product, at_nodes. rewrite !corner_B by lia. rewrite corner_half. unfold of_rows. cbn [nth]. field.
  - unfold tet_volume, pdot, pcross, psub. cbn [px py pz]. lra.
Qed.

(** The hypotheses of C99_balance2 hold in a stream that is not uniform. *)
Example C99_balance_case : let fx := Fixed2 (all_but 2 (fun i => if Nat.eqb i 1 then 1 else 0)) (fun _ => Some 0) (all_but 1 (fun _ => 0)) in
  let s := Stream2 (fun i => if Nat.eqb i 1 then 1 else 0) (fun _ => 0) (fun _ => 0) in
  exists s', cbs_step2 corner_nodes corner_elems one_free fx 1 0 0 0 1 s = Ok s' /\
    forall i, (i < 3)%nat -> s2_u s' i = nth i [0; 1; 1 / 6] 0 /\ s2_v s' i = 0 /\ s2_p s' i = nth i [0; - (1 / 3); 0] 0.
Proof.
  intros fx s. destruct corner_mesh as (M & Po & C & Cv).
  refine (C99_balance2 corner_nodes corner_elems one_free fx 1 0 0 0 1 s _ _ _ _ _ _ _ (fun i => nth i [0; 1; - (1 / 2)] 0) (fun _ => 0)
    (fun i => nth i [0; - (1 / 3); 0] 0) (fun i => nth i [0; 1; 1 / 6] 0) (fun _ => 0) M Po _ Cv _ _ _ _ (corner_ddt _) corner_laplacian (corner_gradient CP_X _ eq_refl) (corner_gradient CP_Y _ eq_refl)
    (corner_divergence _ _ _) (corner_divergence _ _ _) _ _ _ _ _ _ _ _);
  change (length (t_ids corner_nodes)) with 3%nat.
  - intros id e H. rewrite (C id e H). change (0 < tri_area (Fem_Model.P 0 0 0) (Fem_Model.P 1 0 0) (Fem_Model.P 0 1 0)). rewrite corner_half. lra.
  - lra.
  - apply one_free_right. lia.
  - intros A b x Mx _ i Hi. specialize (Mx i Hi). cbn in Mx. unfold one_free. cbn. now rewrite Mx.
  - apply one_free_right. lia.
  - apply one_posed; [lia|]. rewrite !corner_stamp by lia. rewrite corner_M, corner_L by lia. unfold flow_tri_convective, mscale, rows_product, at_nodes. rewrite !corner_B by lia. rewrite corner_half. unfold of_rows, s. cbn [nth Nat.eqb s2_u s2_v]. lra.
  - intros y Hy i Hi. specialize (Hy i Hi). exact Hy.
  - apply one_posed; [lia|]. rewrite corner_stamp, corner_L by lia. unfold of_rows. cbn [nth]. lra.
  - intros i Hi. destruct i as [|[|[|i]]]; try lia; cbn [fx x2_u all_but Nat.eqb nth]; try reflexivity. unfold mat_vec. cbn [rsum nth]. rewrite !corner_stamp by lia. rewrite !corner_M, !corner_L by lia.
    unfold flow_tri_convective, mscale, rows_product, at_nodes. rewrite !corner_B by lia. rewrite corner_half. unfold of_rows, s. cbn [nth Nat.eqb s2_u s2_v]. field.
  - intros i Hi. reflexivity.
  - intros i Hi. destruct i as [|[|[|i]]]; try lia; cbn [fx x2_p all_but Nat.eqb nth]; try reflexivity. unfold mat_vec. cbn [rsum nth]. rewrite !corner_stamp by lia. rewrite !corner_L by lia. unfold mscale. rewrite !corner_B by lia. unfold of_rows. cbn [nth]. field.
  - intros i Hi. destruct i as [|[|[|i]]]; try lia; cbn [fx x2_u all_but Nat.eqb nth]; try reflexivity. unfold mat_vec. cbn [rsum nth]. rewrite !corner_stamp by lia. rewrite !corner_M by lia. unfold mscale. rewrite !corner_B by lia. unfold of_rows. cbn [nth Nat.eqb]. field.
  - intros i Hi. reflexivity.
Qed.

(** ** Where it fails *)
(** In a tetrahedron whose last two corners have different velocities along x, a uniform field is carried away: its convective term is not zero. *)
Theorem C99_tetrahedron_refuted : exists u, form 4 (flow_tet_convective 0 u (fun _ => 0) (fun _ => 0) (P 0 1 0) (P 0 0 1) (P 1 0 0) (P 0 0 0)) (fun i => if Nat.eqb i 3 then 1 else 0) (fun _ => 1) = 1 / 120 /\
  0 < tet_volume (P 0 1 0) (P 0 0 1) (P 1 0 0) (P 0 0 0).
Proof.
  exists (fun i => if Nat.eqb i 2 then 1 else 0). assert (HV : 0 < tet_volume (P 0 1 0) (P 0 0 1) (P 1 0 0) (P 0 0 0)) by (unfold tet_volume, pdot, pcross, psub; cbn [px py pz]; lra). split; [|exact HV].
  rewrite tet_convective_form by exact HV. unfold tet_B, of_rows, mean. cbn [rsum nth Nat.eqb px py pz]. replace (INR 4) with 4 by (cbn; ring). unfold Rdiv. ring.
Qed.
Print Assumptions C99_tetrahedron_refuted.
(** The term along the stream is subtracted: in a uniform stream the convective matrix takes away energy of the wrong sign (a negative amount of diffusion along the
    stream), growing with the time step. *)
Theorem C99_stabilisation_refuted : forall p q r dt U V g c, upright p q r -> 0 < dt -> mean 3 (linear g c [p; q; r]) = 0 -> U * px g + V * py g <> 0 ->
  form 3 (flow_tri_convective dt (fun _ => U) (fun _ => V) p q r) (linear g c [p; q; r]) (linear g c [p; q; r]) = - (dt * tri_area p q r * (U * px g + V * py g) ^ 2) /\
  form 3 (flow_tri_convective dt (fun _ => U) (fun _ => V) p q r) (linear g c [p; q; r]) (linear g c [p; q; r]) < 0.
Proof.
  intros p q r dt U V g c Up Hd Hm Nz. destruct (upright_area p q r Up) as [_ HA]. destruct (C99_triangle p q r dt (fun _ => U) (fun _ => V) g g c c Up) as (_ & E & _).
  assert (E' : form 3 (flow_tri_convective dt (fun _ => U) (fun _ => V) p q r) (linear g c [p; q; r]) (linear g c [p; q; r]) = - (dt * tri_area p q r * (U * px g + V * py g) ^ 2)).
  { rewrite E. unfold tri_integral, mean in *. replace (INR 3) with 3 in * by (cbn; ring). assert (Z : rsum 3 (linear g c [p; q; r]) = 0) by lra.
    rewrite (rsum_ext 3 (fun i => linear g c [p; q; r] i * U) (fun i => U * linear g c [p; q; r] i)), (rsum_ext 3 (fun i => linear g c [p; q; r] i * V) (fun i => V * linear g c [p; q; r] i)) by (intros; ring). rewrite !rsum_scale, Z. cbn [rsum]. field. }
  split; [exact E'|]. rewrite E'. assert (0 < (U * px g + V * py g) ^ 2) by (replace ((U * px g + V * py g) ^ 2) with (Rsqr (U * px g + V * py g)) by (unfold Rsqr; ring); apply Rsqr_pos_lt; exact Nz). assert (0 < dt * tri_area p q r) by now apply Rmult_lt_0_compat. assert (0 < dt * tri_area p q r * (U * px g + V * py g) ^ 2) by now apply Rmult_lt_0_compat. lra.
Qed.
Print Assumptions C99_stabilisation_refuted.
Example C99_stabilisation_case : mean 3 (linear (P 3 0 0) (-1) [P 0 0 0; P 1 0 0; P 0 1 0]) = 0 /\ upright (P 0 0 0) (P 1 0 0) (P 0 1 0).
Proof. split; [|exact corner_upright]. unfold mean, linear, pdot. cbn [rsum nth px py pz]. replace (INR 3) with 3 by (cbn; ring). field. Qed.
(** Gravity does not see the size of the elements: from rest, with nothing fixed, a uniform velocity c solves the first equation on a triangle only if
    c is 3 g dt divided by the area, so bodies fall with the given acceleration only in triangles of area 3. *)
Theorem C99_gravity_refuted : forall nu dt g c, 0 < dt ->
  exists M b L D, flow_ddt corner_nodes corner_elems (fun _ => 0) = Ok (M, b) /\ flow_laplacian corner_nodes corner_elems = Ok L /\
    flow_divergence2 corner_nodes corner_elems (fun _ => 0) (fun _ => 0) dt = Ok D /\
    (let E := velocity_equation (M, b) L D nu dt g in meets 3 (fun _ => None) (fst E) (snd E) (fun _ => c) <-> c = 6 * (g * dt)).
Proof.
  intros nu dt g c Hd. do 4 eexists. split; [apply corner_ddt|]. split; [apply corner_laplacian|]. split; [apply corner_divergence|]. cbv zeta. unfold meets, velocity_equation. cbn [fst snd].
  assert (Row : forall i, (i < 3)%nat -> rsum 3 (fun j => (1 / dt * stamp [0; 1; 2]%nat (tri_ddt 1 (P 0 0 0) (P 1 0 0) (P 0 1 0)) (fun _ _ => 0) i j - nu * stamp [0; 1; 2]%nat (tri_laplacian 1 (P 0 0 0) (P 1 0 0) (P 0 1 0)) (fun _ _ => 0) i j
     + stamp [0; 1; 2]%nat (flow_tri_convective dt (at_nodes [0; 1; 2]%nat (fun _ => 0)) (at_nodes [0; 1; 2]%nat (fun _ => 0)) (P 0 0 0) (P 1 0 0) (P 0 1 0)) (fun _ _ => 0) i j) * c) = c / (6 * dt)).
  { intros i Hi. cbn [rsum]. rewrite !corner_stamp by lia. rewrite !corner_M, !corner_L by lia. unfold flow_tri_convective, mscale, rows_product, at_nodes. rewrite !corner_B by lia. rewrite corner_half. unfold of_rows. destruct i as [|[|[|i]]]; try lia; cbn [nth Nat.eqb]; field; lra. }
  assert (Z : forall i, mat_vec 3 (stamp [0; 1; 2]%nat (tri_ddt 1 (P 0 0 0) (P 1 0 0) (P 0 1 0)) (fun _ _ => 0)) (fun _ => 0) i = 0) by (intros i; unfold mat_vec; apply rsum_zero; intros; ring).
  split.
  - intros H. specialize (H 0%nat ltac:(lia)). rewrite Row, Z in H by lia. apply (Rmult_eq_reg_r (/ (6 * dt))); [|apply Rinv_neq_0_compat; lra]. unfold Rdiv in H at 1. rewrite H. field. lra.
  - intros -> i Hi. rewrite Row, Z by exact Hi. field. lra.
Qed.
Print Assumptions C99_gravity_refuted.
(** The density enters the correction but not the pressure: two fluids with the same kinematic viscosity (none), one twice as dense, leave the same state
    with different velocities. *)
Theorem C99_density_refuted : let fx := Fixed2 (all_but 2 (fun i => if Nat.eqb i 1 then 1 else 0)) (fun _ => Some 0) (all_but 1 (fun _ => 0)) in
  let s := Stream2 (fun i => if Nat.eqb i 1 then 1 else 0) (fun _ => 0) (fun _ => 0) in
  exists s1 s2, cbs_step2 corner_nodes corner_elems one_free fx 1 0 0 0 1 s = Ok s1 /\ cbs_step2 corner_nodes corner_elems one_free fx 2 0 0 0 1 s = Ok s2 /\
    s2_u s1 2%nat = 1 / 6 /\ s2_u s2 2%nat = - (1 / 6).
Proof.
  intros fx s.
  assert (G : forall rho, rho <> 0 -> exists s', cbs_step2 corner_nodes corner_elems one_free fx rho 0 0 0 1 s = Ok s' /\ s2_u s' 2%nat = - (1 / 2) + 2 / (3 * rho)).
  { intros rho Nr.
    assert (S1 : exists s1, velocity_field2 corner_nodes corner_elems one_free fx rho 0 0 0 1 s = Ok s1 /\ s2_u s1 0%nat = 0 /\ s2_u s1 1%nat = 1 /\ s2_u s1 2%nat = - (1 / 2) /\ forall i, s2_v s1 i = 0).
    { unfold velocity_field2. repeat (rewrite ?corner_ddt, ?corner_laplacian, ?corner_divergence; cbn [bind]). eexists. split; [reflexivity|]. cbn [s2_u s2_v]. split; [reflexivity|]. split; [reflexivity|]. split; [|reflexivity].
      unfold one_free, fx, all_but, velocity_equation, s. cbn [x2_u fst snd Nat.eqb rsum s2_u s2_v]. unfold mat_vec. cbn [rsum Nat.eqb]. rewrite !corner_stamp by lia. rewrite !corner_M, !corner_L by lia. unfold flow_tri_convective, mscale, rows_product, at_nodes. rewrite !corner_B by lia. rewrite corner_half. unfold of_rows. cbn [nth Nat.eqb]. field. exact Nr. }
    destruct S1 as (s1 & E1 & U0 & U1 & U2 & V2).
    assert (S2 : exists s2, pressure_field2 corner_nodes corner_elems one_free fx 1 s1 = Ok s2 /\ s2_u s2 = s2_u s1 /\ s2_p s2 0%nat = 0 /\ s2_p s2 1%nat = - (1 / 3) /\ s2_p s2 2%nat = 0).
    { unfold pressure_field2. rewrite corner_laplacian, (corner_gradient CP_X _ eq_refl), (corner_gradient CP_Y _ eq_refl). cbn [bind]. eexists. split; [reflexivity|]. cbn [s2_u s2_v s2_p]. split; [reflexivity|]. split; [reflexivity|]. split; [|reflexivity].
      change (length (t_ids corner_nodes)) with 3%nat. unfold one_free, fx, all_but, mat_vec. cbn [x2_p fst snd Nat.eqb rsum]. rewrite !corner_stamp by lia. rewrite !corner_L by lia. unfold mscale. rewrite !corner_B by lia. rewrite U0, U1, U2, !V2. unfold of_rows. cbn [nth Nat.eqb]. field. }
    destruct S2 as (s2 & E2 & Eu & P0 & P1 & P2). unfold cbs_step2. rewrite E1. cbn [bind]. rewrite E2. cbn [bind]. unfold correct_field2. rewrite !corner_ddt, (corner_gradient CP_X _ eq_refl), (corner_gradient CP_Y _ eq_refl). cbn [bind]. eexists. split; [reflexivity|]. cbn [s2_u].
    change (length (t_ids corner_nodes)) with 3%nat. rewrite Eu. unfold one_free, fx, all_but, mat_vec. cbn [x2_u fst snd Nat.eqb rsum]. unfold mscale. rewrite !corner_stamp by lia. rewrite !corner_M by lia. rewrite ?corner_B by lia. rewrite U0, U1, U2, P0, P1, P2. unfold of_rows. cbn [nth Nat.eqb]. field. exact Nr. }
  destruct (G 1) as (s1 & E1 & H1); [lra|]. destruct (G 2) as (s2 & E2 & H2); [lra|]. exists s1, s2. split; [exact E1|]. split; [exact E2|]. rewrite H1, H2. split; field.
Qed.
Print Assumptions C99_density_refuted.
(** Above the plane z = 0 the triangle works in axes of its own: for the field x, whose derivative along x is 1, the gradient along x of this triangle is zero. And
    with the corners clockwise the gradient points backwards. *)
Theorem C99_plane_refuted :
  (exists G, flow_tri_gradient CP_X (P 0 0 1) (P 0 1 1) (P (-1) 0 1) = Ok G /\ forall t, form 3 G t (linear (P 1 0 0) 0 [P 0 0 1; P 0 1 1; P (-1) 0 1]) = 0) /\
  (exists G, flow_tri_gradient CP_X (P 0 0 0) (P 0 1 0) (P 1 0 0) = Ok G /\ forall t, form 3 G t (linear (P 1 0 0) 0 [P 0 0 0; P 0 1 0; P 1 0 0]) = - (mean 3 t * tri_area (P 0 0 0) (P 0 1 0) (P 1 0 0))).
Proof.
  split.
  - eexists. split; [reflexivity|]. intros t. rewrite form_scale, form_same_rows.
    assert (N : forall v, pdot v v = 1 -> pnormalize v = v).
    { intros v H. unfold pnormalize. destruct (Rlt_dec 0 (pdot v v)); [|lra]. rewrite (pnorm_unique v 1) by lra. destruct v. unfold pscale. cbn. f_equal; field. }
    assert (F : frame (P 0 0 1) (P 0 1 1) (P (-1) 0 1) = (P 0 1 0, P (-1) 0 0, P 0 0 1)).
    { unfold frame. replace (psub (P 0 1 1) (P 0 0 1)) with (P 0 1 0) by (unfold psub; cbn; f_equal; ring). replace (psub (P (-1) 0 1) (P 0 0 1)) with (P (-1) 0 0) by (unfold psub; cbn; f_equal; ring).
      rewrite (N (P 0 1 0)) by (unfold pdot; cbn; ring). replace (pcross (P 0 1 0) (P (-1) 0 0)) with (P 0 0 1) by (unfold pcross; cbn; f_equal; ring). rewrite (N (P 0 0 1)) by (unfold pdot; cbn; ring).
      replace (pcross (P 0 0 1) (P 0 1 0)) with (P (-1) 0 0) by (unfold pcross; cbn; f_equal; ring). rewrite (N (P (-1) 0 0)) by (unfold pdot; cbn; ring). reflexivity. }
    assert (Lo : forall x, local (P 0 0 1) (P 0 1 1) (P (-1) 0 1) x = in_frame (P 0 1 0, P (-1) 0 0, P 0 0 1) x) by (intros x; unfold local; cbn [pz]; destruct (Req_EM_T 1 0); [lra|]; now rewrite F).
    unfold tri_B. rewrite !Lo. unfold in_frame, pdot, of_rows, linear, pdot. cbn [rsum nth px py pz]. ring.
  - eexists. split; [reflexivity|]. intros t. rewrite form_scale, form_same_rows.
    assert (A : tri_area (P 0 0 0) (P 0 1 0) (P 1 0 0) = 1 / 2) by (apply half; unfold pdot, tri_normal, pcross, psub; cbn; ring). rewrite A.
    assert (Lo : forall x, local (P 0 0 0) (P 0 1 0) (P 1 0 0) x = x) by (intros x; unfold local; cbn [pz]; destruct (Req_EM_T 0 0); [reflexivity|lra]).
    unfold tri_B. rewrite !Lo. unfold of_rows, linear, pdot, mean. cbn [rsum nth px py pz]. replace (INR 3) with 3 by (cbn; ring). field.
Qed.
Print Assumptions C99_plane_refuted.

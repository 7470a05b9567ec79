(** Finite elements for flow: fem/flow/FemFlowTriangle_Imp.hpp, FemFlowTetrahedron_Imp.hpp, pde/fem/flow/FemFlowOperators_Imp.hpp and the solver
    solvers/FemCbsSolver_Imp.hpp. Arithmetic is exact over R; one unknown per node (nbDofs 1, as the solver sets); elements keep the thickness 1 of
    MshElement_Imp.hpp 19. The density and viscosity given to the elements are never used by the terms below and are left out. *)
From Coq Require Import Reals ZArith List Bool.
From Verif Require Import Prelude ZMap Vec Mesh_Model Fem_Model Asm_Model.
Import ListNotations.
Open Scope R_scope.

Definition mplus (A B : rmat) : rmat := fun i j => A i j + B i j.
(** Ks << p_i q_j : the product of two rows of B. *)
Definition rows_product (p q : nat -> R) : rmat := fun i j => p i * q j.

(** ** Elements *)
(** FemFlowTriangle_Imp.hpp 36-92, setConvectiveTerm. *)
Definition flow_tri_convective (dt : R) (u v : nat -> R) (p q r : pt) : rmat :=
  let B := tri_B p q r in let b := B 0%nat in let c := B 1%nat in let A := tri_area p q r in
  let us := u 0%nat + u 1%nat + u 2%nat in let vs := v 0%nat + v 1%nat + v 2%nat in
  let C := mscale (1 / 24) (fun i j => (us + u i) * b j + (vs + v i) * c j) in
  let ua := us / 3 in let va := vs / 3 in
  let Ks1 := mscale (ua * us / (12 * A)) (rows_product b b) in
  let Ks2 := mscale (ua * vs / (12 * A)) (rows_product b c) in
  let Ks3 := mscale (va * us / (12 * A)) (rows_product c b) in
  let Ks4 := mscale (va * vs / (12 * A)) (rows_product c c) in
  fun i j => C i j - dt * (Ks1 i j + Ks2 i j + Ks3 i j + Ks4 i j).
(** PdeEquation.hpp 19-24, EComponent. *)
Inductive component := CP_X | CP_Y | CP_Z.
(** FemFlowTriangle_Imp.hpp 94-133, setGradientTerm: all rows alike; for CP_Z the matrix stays empty and reading it (FemFlowOperators_Imp.hpp 520) is
    outside it. *)
Definition flow_tri_gradient (k : component) (p q r : pt) : outcome rmat :=
  let B := tri_B p q r in
  match k with
  | CP_X => Ok (mscale (1 / 6) (fun _ j => B 0%nat j))
  | CP_Y => Ok (mscale (1 / 6) (fun _ j => B 1%nat j))
  | CP_Z => UB
  end.
(** FemFlowTetrahedron_Imp.hpp 36-141, setConvectiveTerm. In the entry of row 3 and column 2 the velocity along x is u[2] (line 67), not u[3]. *)
Definition flow_tet_convective (dt : R) (u v w : nat -> R) (p q r s : pt) : rmat :=
  let B := tet_B p q r s in let b := B 0%nat in let c := B 1%nat in let d := B 2%nat in let V := tet_volume p q r s in
  let us := u 0%nat + u 1%nat + u 2%nat + u 3%nat in let vs := v 0%nat + v 1%nat + v 2%nat + v 3%nat in let ws := w 0%nat + w 1%nat + w 2%nat + w 3%nat in
  let pick i j := match i, j with 3%nat, 2%nat => 2%nat | _, _ => i end in
  let C := mscale (1 / 120) (fun i j => (us + u (pick i j)) * b j + (vs + v i) * c j + (ws + w i) * d j) in
  let ua := us / 4 in let va := vs / 4 in let wa := ws / 4 in
  let K x y := mscale (x / (144 * V)) y in
  let Ks1 := K (ua * us) (rows_product b b) in let Ks2 := K (ua * vs) (rows_product b c) in let Ks3 := K (ua * ws) (rows_product b d) in
  let Ks4 := K (va * us) (rows_product c b) in let Ks5 := K (va * vs) (rows_product c c) in let Ks6 := K (va * ws) (rows_product c d) in
  let Ks7 := K (wa * us) (rows_product d b) in let Ks8 := K (wa * vs) (rows_product d c) in let Ks9 := K (wa * ws) (rows_product d d) in
  fun i j => C i j - dt * (Ks1 i j + Ks2 i j + Ks3 i j + Ks4 i j + Ks5 i j + Ks6 i j + Ks7 i j + Ks8 i j + Ks9 i j).
(** FemFlowTetrahedron_Imp.hpp 143-204, setGradientTerm. *)
Definition flow_tet_gradient (k : component) (p q r s : pt) : rmat :=
  let B := tet_B p q r s in
  mscale (1 / 24) (fun _ j => match k with CP_X => B 0%nat j | CP_Y => B 1%nat j | CP_Z => B 2%nat j end).

(** ** Assembly *)
(** The common loop (e.g. FemFlowOperators_Imp.hpp 127-227): elements one after the other; those with a branch have their nodes fetched and their matrix
    added at the positions of the nodes. [shape] is the element matrix from the element, its vertices and the positions of its nodes. *)
Definition flow_assemble (nodes : table pt) (count : nat) (elem : Z -> outcome element) (branch : etype -> nat -> bool)
    (shape : element -> list pt -> list nat -> outcome rmat) : outcome rmat :=
  foldM (fun A el =>
      e <- elem el ;;
      if branch (e_type e) (length (e_nodes e)) then
        vs <- mapM (t_get nodes) (e_nodes e) ;; pos <- positions nodes (e_nodes e) ;; K <- shape e vs pos ;; Ok (stamp pos K A)
      else Ok A)
    (zrange count) (fun _ _ => 0).
Definition is_triangle (t : etype) (n : nat) : bool := match t, n with ET_TRIANGLE, 3%nat => true | _, _ => false end.
Definition is_tetrahedron (t : etype) (n : nat) : bool := match t, n with ET_TETRAHEDRON, 4%nat => true | _, _ => false end.
Definition is_either (t : etype) (n : nat) : bool := (is_triangle t n || is_tetrahedron t n)%bool.
Definition by_id (elems : table element) (el : Z) : outcome element := id <- t_id elems el ;; t_get elems id.
Definition at_nodes (pos : list nat) (u : nat -> R) : nat -> R := fun i => u (nth i pos 0%nat).

(** FemFlowOperators_Imp.hpp 26-113, ddt: the loop variable is used as element id, node ids as positions in the right-hand side (to which a zero source is
    added); at the end the right-hand side is A u. Elements keep the time step 1. *)
Definition flow_ddt (nodes : table pt) (elems : table element) (u : nat -> R) : outcome (rmat * (nat -> R)) :=
  A <- flow_assemble nodes (length (t_ids elems)) (t_get elems) is_either (fun e vs _ =>
         if forallb (fun i => (0 <=? i)%Z && (i <? t_size nodes)%Z)%bool (e_nodes e) then
           match vs with [p; q; r] => Ok (tri_ddt 1 p q r) | [p; q; r; s] => Ok (tet_ddt 1 p q r s) | _ => UB end
         else UB) ;;
  Ok (A, fun i => rsum (length (t_ids nodes)) (fun j => A i j * u j)).
(** 115-230, laplacian. *)
Definition flow_laplacian (nodes : table pt) (elems : table element) : outcome rmat :=
  flow_assemble nodes (length (t_ids elems)) (by_id elems) is_either (fun _ vs _ =>
    match vs with [p; q; r] => Ok (tri_laplacian 1 p q r) | [p; q; r; s] => Ok (tet_laplacian p q r s) | _ => UB end).
(** 278-371, divergence of two fields: triangles only. *)
Definition flow_divergence2 (nodes : table pt) (elems : table element) (u v : nat -> R) (dt : R) : outcome rmat :=
  flow_assemble nodes (length (t_ids elems)) (by_id elems) is_triangle (fun _ vs pos =>
    match vs with [p; q; r] => Ok (flow_tri_convective dt (at_nodes pos u) (at_nodes pos v) p q r) | _ => UB end).
(** 373-464, divergence of three fields: tetrahedra only. *)
Definition flow_divergence3 (nodes : table pt) (elems : table element) (u v w : nat -> R) (dt : R) : outcome rmat :=
  flow_assemble nodes (length (t_ids elems)) (by_id elems) is_tetrahedron (fun _ vs pos =>
    match vs with [p; q; r; s] => Ok (flow_tet_convective dt (at_nodes pos u) (at_nodes pos v) (at_nodes pos w) p q r s) | _ => UB end).
(** 466-581, gradient. *)
Definition flow_gradient (nodes : table pt) (elems : table element) (k : component) : outcome rmat :=
  flow_assemble nodes (length (t_ids elems)) (by_id elems) is_either (fun _ vs _ =>
    match vs with [p; q; r] => flow_tri_gradient k p q r | [p; q; r; s] => Ok (flow_tet_gradient k p q r s) | _ => UB end).

(** ** The solver *)
(** A * x for n unknowns. *)
Definition mat_vec (n : nat) (A : rmat) (x : nat -> R) : nat -> R := fun i => rsum n (fun j => A i j * x j).
(** setElimination and solve (pde/PdeEquation_Imp.hpp 59-155, modelled in Lin_Model) are one function here: it gets the fixed values of the field, the
    matrix and the right-hand side and returns the new values. *)
Definition solver := (nat -> option R) -> rmat -> (nat -> R) -> nat -> R.
Record stream2 := Stream2 { s2_u : nat -> R; s2_v : nat -> R; s2_p : nat -> R }.
Record fixed2 := Fixed2 { x2_u : nat -> option R; x2_v : nat -> option R; x2_p : nat -> option R }.
(** FemCbsSolver_Imp.hpp 83 (87 alike): 1 / dt * ddt(a) - nu * laplacian(a) + divergence(u, v, dt) = g, g being added to every entry of the right-hand side
    (SleSystem_Imp.hpp 88-93). *)
Definition velocity_equation (Mb : rmat * (nat -> R)) (L D : rmat) (nu dt g : R) : rmat * (nat -> R) :=
  (fun i j => 1 / dt * fst Mb i j - nu * L i j + D i j, fun i => 1 / dt * snd Mb i + g).
Section Two.
Context (nodes : table pt) (elems : table element) (solve : solver) (fix2 : fixed2) (density viscosity gx gy dt : R).
Let n := length (t_ids nodes).
(** 78-90, calculateVelocityField: the second equation uses the new u. *)
Definition velocity_field2 (s : stream2) : outcome stream2 :=
  let nu := viscosity / density in
  Mu <- flow_ddt nodes elems (s2_u s) ;; L <- flow_laplacian nodes elems ;; D <- flow_divergence2 nodes elems (s2_u s) (s2_v s) dt ;;
  let Eu := velocity_equation Mu L D nu dt gx in
  let u := solve (x2_u fix2) (fst Eu) (snd Eu) in
  Mv <- flow_ddt nodes elems (s2_v s) ;; D' <- flow_divergence2 nodes elems u (s2_v s) dt ;;
  let Ev := velocity_equation Mv L D' nu dt gy in
  Ok (Stream2 u (solve (x2_v fix2) (fst Ev) (snd Ev)) (s2_p s)).
(** 92-99, calculatePressureField; G1 and G2 are computed once by the constructor (49-50) from the same mesh. *)
Definition pressure_field2 (s : stream2) : outcome stream2 :=
  L <- flow_laplacian nodes elems ;; G1 <- flow_gradient nodes elems CP_X ;; G2 <- flow_gradient nodes elems CP_Y ;;
  Ok (Stream2 (s2_u s) (s2_v s) (solve (x2_p fix2) L (fun i => 1 / dt * (mat_vec n G1 (s2_u s) i + mat_vec n G2 (s2_v s) i)))).
(** 101-112, correctVelocityField. *)
Definition correct_field2 (s : stream2) : outcome stream2 :=
  Mu <- flow_ddt nodes elems (s2_u s) ;; Mv <- flow_ddt nodes elems (s2_v s) ;; G1 <- flow_gradient nodes elems CP_X ;; G2 <- flow_gradient nodes elems CP_Y ;;
  Ok (Stream2 (solve (x2_u fix2) (fst Mu) (fun i => snd Mu i + mat_vec n (mscale (- dt / density) G1) (s2_p s) i))
              (solve (x2_v fix2) (fst Mv) (fun i => snd Mv i + mat_vec n (mscale (- dt / density) G2) (s2_p s) i)) (s2_p s)).
(** 114-123, iterate. *)
Definition cbs_step2 (s : stream2) : outcome stream2 :=
  s <- velocity_field2 s ;; s <- pressure_field2 s ;; correct_field2 s.
End Two.

Record stream3 := Stream3 { s3_u : nat -> R; s3_v : nat -> R; s3_w : nat -> R; s3_p : nat -> R }.
Record fixed3 := Fixed3 { x3_u : nat -> option R; x3_v : nat -> option R; x3_w : nat -> option R; x3_p : nat -> option R }.
Section Three.
Context (nodes : table pt) (elems : table element) (solve : solver) (fix3 : fixed3) (density viscosity gx gy gz dt : R).
Let n := length (t_ids nodes).
(** 213-229, calculateVelocityField: here gravity is divided by the density. *)
Definition velocity_field3 (s : stream3) : outcome stream3 :=
  let nu := viscosity / density in
  L <- flow_laplacian nodes elems ;;
  Mu <- flow_ddt nodes elems (s3_u s) ;; D <- flow_divergence3 nodes elems (s3_u s) (s3_v s) (s3_w s) dt ;;
  let Eu := velocity_equation Mu L D nu dt (gx / density) in
  let u := solve (x3_u fix3) (fst Eu) (snd Eu) in
  Mv <- flow_ddt nodes elems (s3_v s) ;; D' <- flow_divergence3 nodes elems u (s3_v s) (s3_w s) dt ;;
  let Ev := velocity_equation Mv L D' nu dt (gy / density) in
  let v := solve (x3_v fix3) (fst Ev) (snd Ev) in
  Mw <- flow_ddt nodes elems (s3_w s) ;; D'' <- flow_divergence3 nodes elems u v (s3_w s) dt ;;
  let Ew := velocity_equation Mw L D'' nu dt (gz / density) in
  Ok (Stream3 u v (solve (x3_w fix3) (fst Ew) (snd Ew)) (s3_p s)).
(** 231-238, calculatePressureField. *)
Definition pressure_field3 (s : stream3) : outcome stream3 :=
  L <- flow_laplacian nodes elems ;; G1 <- flow_gradient nodes elems CP_X ;; G2 <- flow_gradient nodes elems CP_Y ;; G3 <- flow_gradient nodes elems CP_Z ;;
  Ok (Stream3 (s3_u s) (s3_v s) (s3_w s)
       (solve (x3_p fix3) L (fun i => 1 / dt * (mat_vec n G1 (s3_u s) i + mat_vec n G2 (s3_v s) i + mat_vec n G3 (s3_w s) i)))).
(** 240-254, correctVelocityField. *)
Definition correct_field3 (s : stream3) : outcome stream3 :=
  Mu <- flow_ddt nodes elems (s3_u s) ;; Mv <- flow_ddt nodes elems (s3_v s) ;; Mw <- flow_ddt nodes elems (s3_w s) ;;
  G1 <- flow_gradient nodes elems CP_X ;; G2 <- flow_gradient nodes elems CP_Y ;; G3 <- flow_gradient nodes elems CP_Z ;;
  let push M G x := solve x (fst M) (fun i => snd M i + mat_vec n (mscale (- dt / density) G) (s3_p s) i) in
  Ok (Stream3 (push Mu G1 (x3_u fix3)) (push Mv G2 (x3_v fix3)) (push Mw G3 (x3_w fix3)) (s3_p s)).
(** 256-265, iterate. *)
Definition cbs_step3 (s : stream3) : outcome stream3 :=
  s <- velocity_field3 s ;; s <- pressure_field3 s ;; correct_field3 s.
End Three.

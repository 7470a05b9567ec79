(** Assembly of finite-element systems (pde/fem/generic/FemGenericOperators_Imp.hpp), fields with one unknown per node. The element objects keep
    their defaults (time step, diffusion coefficient, section and thickness 1: FemElement_Imp.hpp 17-23, FemBeam_Imp.hpp 28-29,
    FemTriangle_Imp.hpp 24, FemQuadrilateral_Imp.hpp 24). The sparse matrix is a function of row and column; writing outside it is UB. *)
From Coq Require Import Reals ZArith QArith List Bool.
From Verif Require Import Prelude ZMap Vec Mesh_Model Fem_Model.
Import ListNotations.
Open Scope R_scope.

(** FemGenericOperators_Imp.hpp 215-400: element matrix of the laplacian by element type and number of nodes; [r3] as in Fem_Model. *)
Definition shape_laplacian (r3 : Q) (t : etype) (vs : list pt) : option rmat :=
  match t, vs with
  | ET_BEAM, [a; b] => Some (beam_laplacian 1 1 a b)
  | ET_TRIANGLE, [a; b; c] => Some (tri_laplacian 1 a b c)
  | ET_QUADRILATERAL, [a; b; c; d] => Some (quad_laplacian 1 a b c d)
  | ET_TETRAHEDRON, [a; b; c; d] => Some (tet_laplacian a b c d)
  | ET_TRIANGULAR_PRISM, [a; b; c; d; e; f] => Some (prism_laplacian r3 [a; b; c; d; e; f])
  | ET_HEXAHEDRON, [a; b; c; d; e; f; g; h] => Some (hexa_laplacian [a; b; c; d; e; f; g; h])
  | _, _ => None
  end.
(** 45-189: of ddt; there is no branch for prisms. *)
Definition shape_ddt (t : etype) (vs : list pt) : option rmat :=
  match t, vs with
  | ET_BEAM, [a; b] => Some (beam_ddt 1 1 a b)
  | ET_TRIANGLE, [a; b; c] => Some (tri_ddt 1 a b c)
  | ET_QUADRILATERAL, [a; b; c; d] => Some (quad_ddt 1 1 a b c d)
  | ET_TETRAHEDRON, [a; b; c; d] => Some (tet_ddt 1 a b c d)
  | ET_HEXAHEDRON, [a; b; c; d; e; f; g; h] => Some (hexa_ddt 1 [a; b; c; d; e; f; g; h])
  | _, _ => None
  end.
(** Whether a branch applies: element type and nbNodeIds(). *)
Definition has_branch (prism : bool) (t : etype) (n : nat) : bool :=
  match t, n with
  | ET_BEAM, 2%nat | ET_TRIANGLE, 3%nat | ET_QUADRILATERAL, 4%nat | ET_TETRAHEDRON, 4%nat | ET_HEXAHEDRON, 8%nat => true
  | ET_TRIANGULAR_PRISM, 6%nat => prism
  | _, _ => false
  end.

(** matrixA.coeffRef(r, c) += x *)
Definition add_at (r c : nat) (x : R) (A : rmat) : rmat := fun i j => if (Nat.eqb i r && Nat.eqb j c)%bool then A i j + x else A i j.
(** 231-249: for i, for j: matrixA(index of node i, index of node j) += K(i, j). *)
Definition stamp (pos : list nat) (K : rmat) (A : rmat) : rmat :=
  fold_left (fun A ij => add_at (nth (fst ij) pos 0%nat) (nth (snd ij) pos 0%nat) (K (fst ij) (snd ij)) A) (list_prod (seq 0 (length pos)) (seq 0 (length pos))) A.
(** nodeIndex() of the nodes of an element; indices beyond the matrix are UB. *)
Definition positions (nodes : table pt) (ids : list Z) : outcome (list nat) :=
  pos <- mapM (t_index nodes) ids ;;
  if forallb (fun i => (0 <=? i)%Z && (i <? t_size nodes)%Z)%bool pos then Ok (map Z.to_nat pos) else UB.

(** 197-428, laplacian. *)
Definition fem_laplacian (r3 : Q) (nodes : table pt) (elems : table element) : outcome rmat :=
  foldM (fun A el =>
      id <- t_id elems el ;; e <- t_get elems id ;;
      if has_branch true (e_type e) (length (e_nodes e)) then
        vs <- mapM (t_get nodes) (e_nodes e) ;; pos <- positions nodes (e_nodes e) ;;
        match shape_laplacian r3 (e_type e) vs with Some K => Ok (stamp pos K A) | None => Ok A end
      else Ok A)
    (zrange (length (t_ids elems))) (fun _ _ => 0).

(** 29-195, ddt: the loop variable is used as element id, and node ids as positions in the right-hand side (to which a zero source is
    added); at the end the right-hand side is A u. *)
Definition fem_ddt (nodes : table pt) (elems : table element) (u : nat -> R) : outcome (rmat * (nat -> R)) :=
  A <- foldM (fun A el =>
      e <- t_get elems el ;;
      if has_branch false (e_type e) (length (e_nodes e)) then
        vs <- mapM (t_get nodes) (e_nodes e) ;; pos <- positions nodes (e_nodes e) ;;
        if forallb (fun i => (0 <=? i)%Z && (i <? t_size nodes)%Z)%bool (e_nodes e) then
          match shape_ddt (e_type e) vs with Some K => Ok (stamp pos K A) | None => Ok A end
        else UB
      else Ok A)
    (zrange (length (t_ids elems))) (fun _ _ => 0) ;;
  Ok (A, fun i => rsum (length (t_ids nodes)) (fun j => A i j * u j)).

(** 509-640, source, with setSourceOnNode (e.g. FemBeam_Imp.hpp 90-94): every node of every element gets the given value (no prisms). *)
Definition fem_source (nodes : table pt) (elems : table element) (s : R) : outcome (nat -> R) :=
  foldM (fun B el =>
      id <- t_id elems el ;; e <- t_get elems id ;;
      if has_branch false (e_type e) (length (e_nodes e)) then
        pos <- positions nodes (e_nodes e) ;;
        Ok (fold_left (fun B p => fun i => if Nat.eqb i p then B i + s else B i) pos B)
      else Ok B)
    (zrange (length (t_ids elems))) (fun _ => 0).

(** ** Heat (pde/fem/thermal/FemThermalOperators_Imp.hpp) *)
(** vectorB(p) += x *)
Definition add_vec (p : nat) (x : R) (b : nat -> R) : nat -> R := fun i => if Nat.eqb i p then b i + x else b i.
(** FemLinearTemperatureBeam_Imp.hpp 31-38, setConvectionOnEdge(h, Tinf); the perimeter is the default 1 (FemBeam_Imp.hpp 28-29). The overload with
    three numbers (41-44) calls itself and is not modelled. *)
Definition beam_convection (h Tinf len : R) (Ks : rmat * (nat -> R)) : rmat * (nat -> R) :=
  (add_at 1 1 (h * 1 * len) (add_at 0 0 (h * 1 * len) (fst Ks)), add_vec 1 (h * Tinf * 1 * len) (add_vec 0 (h * Tinf * 1 * len) (snd Ks))).
(** FemLinearTemperatureTriangle_Imp.hpp 39-60, setConvectionOnEdge(edge, h, Tinf); default thickness 1. The radiative overload (63-69) calls a
    function that does not exist and is not modelled. *)
Definition tri_convection (vs : list pt) (edge : nat) (h Tinf : R) (Ks : rmat * (nat -> R)) : rmat * (nat -> R) :=
  let p := ((edge + 0) mod 3)%nat in let q := ((edge + 1) mod 3)%nat in
  let len := pnorm (psub (nth q vs origin) (nth p vs origin)) in
  (add_at q q (h * len * 1 / 3) (add_at q p (h * len * 1 / 6) (add_at p q (h * len * 1 / 6) (add_at p p (h * len * 1 / 3) (fst Ks)))),
   add_vec q (h * Tinf * len * 1 * (1 / 2)) (add_vec p (h * Tinf * len * 1 * (1 / 2)) (snd Ks))).
(** FemThermalOperators_Imp.hpp 229-300: the element matrix and source after the convective conditions; [bc edge] is the coefficient and the ambient
    temperature of a convective condition. A beam uses the condition of its edge 0; types other than beams and triangles ignore conditions. *)
Definition shape_thermal (r3 : Q) (t : etype) (vs : list pt) (bc : nat -> option (R * R)) : option (rmat * (nat -> R)) :=
  match shape_laplacian r3 t vs with
  | None => None
  | Some K => Some
      match t, vs with
      | ET_BEAM, [a; b] => match bc 0%nat with Some (h, Ti) => beam_convection h Ti (beam_length a b) (K, fun _ => 0) | None => (K, fun _ => 0) end
      | ET_TRIANGLE, _ => fold_left (fun Ks i => match bc i with Some (h, Ti) => tri_convection vs i h Ti Ks | None => Ks end) (seq 0 3) (K, fun _ => 0)
      | _, _ => (K, fun _ => 0)
      end
  end.
(** vectorB(index of node i) += source(i) *)
Definition stamp_vec (pos : list nat) (s : nat -> R) (b : nat -> R) : nat -> R :=
  fold_left (fun b i => add_vec (nth i pos 0%nat) (s i) b) (seq 0 (length pos)) b.
(** FemThermalOperators_Imp.hpp 198-460, laplacian (one unknown per node); [bc id edge] is elementBC(id, edge). ddt (31-195) is the text of the generic
    one, modelled above. *)
Definition thermal_laplacian (r3 : Q) (nodes : table pt) (elems : table element) (bc : Z -> nat -> option (R * R)) : outcome (rmat * (nat -> R)) :=
  foldM (fun Ab el =>
      id <- t_id elems el ;; e <- t_get elems id ;;
      if has_branch true (e_type e) (length (e_nodes e)) then
        vs <- mapM (t_get nodes) (e_nodes e) ;; pos <- positions nodes (e_nodes e) ;;
        match shape_thermal r3 (e_type e) vs (bc id) with Some Ks => Ok (stamp pos (fst Ks) (fst Ab), stamp_vec pos (snd Ks) (snd Ab)) | None => Ok Ab end
      else Ok Ab)
    (zrange (length (t_ids elems))) (fun _ _ => 0, fun _ => 0).

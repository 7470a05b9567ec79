(** Assembly of structural finite-element systems (pde/fem/structural/FemStructuralOperators_Imp.hpp), d unknowns per node. The sparse matrix is a
    function of row and column; writing outside it, or reading outside an element matrix, is UB. ddt, divergence and source (26-30, 150-160) are
    empty functions. The right-hand side only receives the zero sources of the elements (FemConstantStrainTriangle_Imp.hpp 23-24,
    FemConstantStrainTetrahedron_Imp.hpp 23-24) and is not modelled. Element thickness is a function of the element id (MshElement_Imp.hpp 404-414). *)
From Coq Require Import Reals ZArith List Bool.
From Verif Require Import Prelude ZMap Mesh_Model Fem_Model Asm_Model.
Import ListNotations.
Open Scope R_scope.

(** 55-76 and 101-119: size and entries of the element matrix. Beams, quadrilaterals and hexahedra have empty branches (51-54, 97-100, 138-141). *)
Definition struct_shape (E v thickness : R) (t : etype) (vs : list pt) : option (nat * rmat) :=
  match t, vs with
  | ET_TRIANGLE, [a; b; c] => Some (6%nat, cst_stiffness E v thickness a b c)
  | ET_TETRAHEDRON, [a; b; c; d] => Some (12%nat, tet_stiffness E v a b c d)
  | _, _ => None
  end.
Definition struct_branch (t : etype) (n : nat) : bool :=
  match t, n with ET_TRIANGLE, 3%nat | ET_TETRAHEDRON, 4%nat => true | _, _ => false end.
(** Rows of the nodes at the given positions: position * nbDofs + k. *)
Definition dofs (d : nat) (pos : list nat) : list nat := flat_map (fun p => map (fun k => (p * d + k)%nat) (seq 0 d)) pos.
(** 32-147, laplacian; the four loops over i, k, j, l (78-93, 120-135) are [stamp] over the rows of the nodes. *)
Definition fem_structural (d : nat) (E v : R) (thickness : Z -> R) (nodes : table pt) (elems : table element) : outcome rmat :=
  foldM (fun A el =>
      id <- t_id elems el ;; e <- t_get elems id ;;
      if struct_branch (e_type e) (length (e_nodes e)) then
        vs <- mapM (t_get nodes) (e_nodes e) ;; pos <- positions nodes (e_nodes e) ;;
        match struct_shape E v (thickness id) (e_type e) vs with
        | Some (size, K) => if Nat.leb (length pos * d) size then Ok (stamp (dofs d pos) K A) else UB
        | None => Ok A
        end
      else Ok A)
    (zrange (length (t_ids elems))) (fun _ _ => 0).

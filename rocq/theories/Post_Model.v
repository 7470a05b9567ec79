(** Model of the mesh files: post/PosGmsh_Imp.hpp (save and load), post/PosVtk_Imp.hpp (save), post/PosGnuplot_Imp.hpp (save, nodes).

    A text file is a list of lines and a line a list of words. An integer is a word of its own; a number is kept together with the number of significant digits it is
    printed with, and what a reader makes of it is the function [parse] given to the loader. Words are separated by one blank, which is all the writers produce. *)
From Coq Require Import ZArith List Bool String QArith.
From Verif Require Import Prelude Vec ZMap Mesh_Model.
Import ListNotations.
Open Scope Z_scope.

Inductive word : Type := WI (n : Z) | WD (digits : Z) (x : Q) | WS (s : string).
Definition line : Type := list word.
Definition document : Type := list line.
(** Where the field lives (pde/PdeField.hpp, EDiscretLocation). *)
Inductive location : Type := DL_NODE | DL_ELEMENT_CENTER.

(** ** Gmsh: writing *)
(** PosGmsh_Imp.hpp:205-231: the number of an element type. *)
Definition gmsh_type (t : etype) : Z :=
  match t with
  | ET_NODE => 15 | ET_BEAM => 1 | ET_TRIANGLE => 2 | ET_QUADRILATERAL => 3 | ET_TETRAHEDRON => 4 | ET_HEXAHEDRON => 5 | ET_TRIANGULAR_PRISM => 6 | _ => 0
  end.
Definition number3 (d : Z) (c : coord) : line := [WD d (cx c); WD d (cy c); WD d (cz c)].
(** 183-189. *)
Definition gmsh_node (m : mesh) (i : Z) : outcome line :=
  id <- t_id (m_nodes m) i ;; index <- t_index (m_nodes m) id ;; c <- t_get (m_nodes m) id ;; Ok (WI (index + 1) :: number3 16 c).
(** 196-242. *)
Definition gmsh_elem (m : mesh) (i : Z) : outcome line :=
  id <- t_id (m_elems m) i ;; index <- t_index (m_elems m) id ;; e <- t_get (m_elems m) id ;;
  ns <- mapM (fun n => k <- t_index (m_nodes m) n ;; Ok (WI (k + 1))) (e_nodes e) ;;
  Ok (WI (index + 1) :: WI (gmsh_type (e_type e)) :: WI 0 :: ns).
(** 265-275 and 302-312: one line of field data. *)
Definition gmsh_data {A} (t : table A) (u : list Q) (dofs : Z) (i : Z) : outcome (list line) :=
  index <- t_index t i ;;
  if dofs =? 1 then x <- vec_get u i ;; Ok [[WI (index + 1); WD 16 x]]
  else if dofs =? 2 then x <- vec_get u (i * 2) ;; y <- vec_get u (i * 2 + 1) ;; Ok [[WI (index + 1); WD 16 x; WD 16 y]]
  else if dofs =? 3 then x <- vec_get u (i * 3) ;; y <- vec_get u (i * 3 + 1) ;; z <- vec_get u (i * 3 + 2) ;; Ok [[WI (index + 1); WD 16 x; WD 16 y; WD 16 z]]
  else Ok [].
Definition positions {A} (t : table A) : list Z := zrange (Z.to_nat (t_size t)).
(** 247-321. *)
Definition gmsh_view {A} (t : table A) (name begin_ end_ : string) (u : list Q) (dofs : Z) : outcome document :=
  rows <- mapM (gmsh_data t u dofs) (positions t) ;;
  Ok ([[WS begin_]; [WI 1]; [WS name]; [WI 1]; [WS "0.0"]; [WI 3]; [WI 0]; [WI dofs]; [WI (t_size t)]] ++ List.concat rows ++ [[WS end_]]).
(** 169-329, save. *)
Definition gmsh_save (m : mesh) (u : list Q) (dofs : Z) (loc : location) (name : string) : outcome document :=
  ns <- mapM (gmsh_node m) (positions (m_nodes m)) ;;
  es <- mapM (gmsh_elem m) (positions (m_elems m)) ;;
  d <- (match u with [] => Ok [] | _ => match loc with DL_NODE => gmsh_view (m_nodes m) name "$NodeData" "$EndNodeData" u dofs
                                        | DL_ELEMENT_CENTER => gmsh_view (m_elems m) name "$ElementData" "$EndElementData" u dofs end end) ;;
  Ok ([[WS "$MeshFormat"]; [WS "2.2"; WI 0; WI 8]; [WS "$EndMeshFormat"]; [WS "$Nodes"]; [WI (t_size (m_nodes m))]] ++ ns ++
      [[WS "$EndNodes"]; [WS "$Elements"]; [WI (t_size (m_elems m))]] ++ es ++ [[WS "$EndElements"]] ++ d).

(** ** Gmsh: reading *)
(** A position in the file: the rest of the current line comes first. std::getline. *)
Definition getline (d : document) : option (line * document) := match d with l :: r => Some (l, r) | [] => None end.
(** [>>]: the next word, on whichever line it is. *)
Fixpoint next (d : document) : option (word * document) :=
  match d with [] => None | [] :: r => next r | (w :: l) :: r => Some (w, l :: r) end.
(** Reading an integer; anything else would leave the stream in a failed state and the variable without meaning, which the model treats as undefined. *)
Definition read_int (d : document) : outcome (Z * document) := match next d with Some (WI n, r) => Ok (n, r) | _ => UB end.
Definition read_real (parse : Z -> Q -> Q) (d : document) : outcome (Q * document) :=
  match next d with Some (WD k x, r) => Ok (parse k x, r) | Some (WI n, r) => Ok (inject_Z n, r) | _ => UB end.
(** 31-44, findSection: a line containing the name. Section names contain no blank. *)
Definition mentions (name : string) (l : line) : bool :=
  existsb (fun w => match w with WS s => match index 0 name s with Some _ => true | None => false end | _ => false end) l.
Fixpoint find_section (name : string) (d : document) : option document :=
  match d with [] => None | l :: r => if mentions name l then Some r else find_section name r end.
Fixpoint repeatM {S} (n : nat) (f : S -> outcome S) (s : S) : outcome S := match n with O => Ok s | Datatypes.S n => s' <- f s ;; repeatM n f s' end.
(** 65-75. *)
Definition load_node (parse : Z -> Q -> Q) (s : table coord * document) : outcome (table coord * document) :=
  let '(t, d) := s in
  i <- read_int d ;; x <- read_real parse (snd i) ;; y <- read_real parse (snd x) ;; z <- read_real parse (snd y) ;;
  Ok (t_add t (fst i - 1) (Coord (fst x) (fst y) (fst z)), snd z).
(** 110-146. *)
Definition gmsh_kind (n : Z) : option (etype * nat) :=
  match n with
  | 1 => Some (ET_BEAM, 2%nat) | 2 => Some (ET_TRIANGLE, 3%nat) | 3 => Some (ET_QUADRILATERAL, 4%nat) | 4 => Some (ET_TETRAHEDRON, 4%nat)
  | 5 => Some (ET_HEXAHEDRON, 8%nat) | 6 => Some (ET_TRIANGULAR_PRISM, 6%nat) | _ => None
  end.
Fixpoint read_ints (n : nat) (d : document) : outcome (list Z * document) :=
  match n with O => Ok ([], d) | Datatypes.S n => x <- read_int d ;; r <- read_ints n (snd x) ;; Ok (fst x :: fst r, snd r) end.
(** 87-157: types outside 1 to 6 are skipped with the rest of their line. *)
Definition load_elem (s : table element * document) : outcome (table element * document) :=
  let '(t, d) := s in
  i <- read_int d ;; ty <- read_int (snd i) ;; tags <- read_int (snd ty) ;;
  match gmsh_kind (fst ty) with
  | None => Ok (t, match getline (snd tags) with Some (_, r) => r | None => [] end)
  | Some (k, n) =>
    a <- read_ints (Z.to_nat (fst tags)) (snd tags) ;; ns <- read_ints n (snd a) ;;
    Ok (t_add t (fst i - 1) (Element k (map (fun n => n - 1) (fst ns)) []), snd ns)
  end.
(** 46-166, load of a file that exists: the mesh held before is discarded (line 60). A section not found leaves nothing to read. *)
Definition gmsh_load (parse : Z -> Q -> Q) (file : document) (old : mesh) : outcome mesh :=
  let d := match find_section "$MeshFormat" file with Some d => match find_section "$EndMeshFormat" d with Some d => d | None => [] end | None => [] end in
  nd <- (match find_section "$Nodes" d with
         | Some d => n <- read_int d ;; repeatM (Z.to_nat (fst n)) (load_node parse) (t_empty, snd n)
         | None => Ok (t_empty, []) end) ;;
  ed <- (match find_section "$Elements" (snd nd) with
         | Some d => n <- read_int d ;; repeatM (Z.to_nat (fst n)) load_elem (t_empty, snd n)
         | None => Ok (t_empty, []) end) ;;
  Ok (Mesh (fst nd) t_empty (fst ed)).

(** ** VTK *)
(** PosVtk_Imp.hpp:80-101: words announced for an element, without the count. *)
Definition vtk_arity (t : etype) : Z :=
  match t with ET_BEAM => 2 | ET_TRIANGLE => 3 | ET_QUADRILATERAL => 4 | ET_TETRAHEDRON => 4 | ET_HEXAHEDRON => 8 | ET_TRIANGULAR_PRISM => 6 | _ => 0 end.
(** 116-164: which nodes are written, in which order; [None] where nothing is written. *)
Definition vtk_order (t : etype) : option (list Z) :=
  match t with
  | ET_BEAM => Some [0; 1] | ET_TRIANGLE => Some [0; 1; 2] | ET_TETRAHEDRON => Some [0; 2; 1; 3] | ET_HEXAHEDRON => Some [0; 1; 2; 3; 4; 5; 6; 7]
  | ET_TRIANGULAR_PRISM => Some [0; 1; 2; 3; 4; 5] | _ => None
  end.
(** 173-203. *)
Definition vtk_type (t : etype) : Z :=
  match t with ET_BEAM => 3 | ET_TRIANGLE => 5 | ET_QUADRILATERAL => 9 | ET_TETRAHEDRON => 10 | ET_HEXAHEDRON => 12 | ET_TRIANGULAR_PRISM => 13 | _ => 0 end.
(** 66-71: the precision is set after the first number of a line is written, so the very first number of the file gets the default of 6 digits. *)
Definition vtk_point (m : mesh) (i : Z) : outcome line :=
  id <- t_id (m_nodes m) i ;; c <- t_get (m_nodes m) id ;; Ok [WD (if i =? 0 then 6 else 16) (cx c); WD 16 (cy c); WD 16 (cz c)].
Definition vtk_cell (m : mesh) (i : Z) : outcome line :=
  id <- t_id (m_elems m) i ;; e <- t_get (m_elems m) id ;;
  match vtk_order (e_type e) with
  | Some order => ns <- mapM (fun j => n <- vec_at (e_nodes e) j ;; k <- t_index (m_nodes m) n ;; Ok (WI k)) order ;; Ok (WI (vtk_arity (e_type e)) :: ns)
  | None => Ok []
  end.
Definition vtk_cell_type (m : mesh) (i : Z) : outcome line := id <- t_id (m_elems m) i ;; e <- t_get (m_elems m) id ;; Ok [WI (vtk_type (e_type e))].
(** 73-104. *)
Definition vtk_size (m : mesh) : outcome Z :=
  foldM (fun n i => id <- t_id (m_elems m) i ;; e <- t_get (m_elems m) id ;; Ok (n + (vtk_arity (e_type e) + 1))) (positions (m_elems m)) 0.
(** 206-222. *)
Definition vtk_data (m : mesh) (u : list Q) (dofs : Z) (i : Z) : outcome (list line) :=
  _ <- t_index (m_nodes m) i ;; if dofs =? 1 then x <- vec_get u i ;; Ok [[WD 16 x]] else Ok [].
(** 48-230, save. *)
Definition vtk_save (m : mesh) (u : list Q) (dofs : Z) (loc : location) : outcome document :=
  ps <- mapM (vtk_point m) (positions (m_nodes m)) ;;
  size <- vtk_size m ;;
  cs <- mapM (vtk_cell m) (positions (m_elems m)) ;;
  ts <- mapM (vtk_cell_type m) (positions (m_elems m)) ;;
  d <- (match u, loc with
        | _ :: _, DL_NODE => rows <- mapM (vtk_data m u dofs) (positions (m_nodes m)) ;;
            Ok ([[WS "POINT_DATA"; WI (t_size (m_nodes m))]; [WS "SCALARS"; WS "fixed"; WS "float"]; [WS "LOOKUP_TABLE"; WS "default"]] ++ List.concat rows)
        | _, _ => Ok [] end) ;;
  Ok ([[WS "#"; WS "vtk"; WS "DataFile"; WS "Version"; WS "2.0"]; [WS "."]; [WS "ASCII"]; [WS "DATASET"; WS "UNSTRUCTURED_GRID"];
       [WS "POINTS"; WI (t_size (m_nodes m)); WS "float"]] ++ ps ++ [[WS "CELLS"; WI (t_size (m_elems m)); WI size]] ++ cs ++
      [[WS "CELL_TYPES"; WI (t_size (m_elems m))]] ++ ts ++ d).

(** ** Gnuplot, nodal fields *)
(** PosGnuplot_Imp.hpp:41-52: the index is used as an id. *)
Definition gnuplot_row (m : mesh) (u : list Q) (i : Z) : outcome line :=
  id <- t_index (m_nodes m) i ;; c <- t_get (m_nodes m) id ;; x <- vec_get u i ;; Ok ([WI (id + 1)] ++ number3 16 c ++ [WD 16 x]).
Definition gnuplot_save (m : mesh) (u : list Q) : outcome document :=
  rows <- mapM (gnuplot_row m u) (positions (m_nodes m)) ;; Ok ([WS "#"; WS "id"; WS "x"; WS "y"; WS "z"; WS "u"] :: rows).

(** Model of CPdeField (pde/PdeField_Imp.hpp 16-243), CPdeBoundaryCondition (pde/PdeBoundaryCondition_Imp.hpp 16-83) and the
    constant properties of CMatMaterial (material/MatMaterial_Imp.hpp 16-56): what is set on a field by any sequence of calls and read back.
    Reals are rationals, Integer is Z (no overflow). Not modelled: the mesh of the field, the four enumerations of the
    discretisation (plain fields with setter and getter), conditions and properties given by functions (m_conditionFunc, m_propertyFunc), a condition's location. *)
From Coq Require Import ZArith QArith List Lia Bool.
From Verif Require Import Prelude ZMap.
Import ListNotations.
Open Scope Z_scope.

(** pde/PdeBoundaryCondition.hpp 43-47: m_boundaryConditionType (by its number) and m_condition (conditions by their number). *)
Record cond := Cond { c_type : Z; c_values : zmap Q }.

(** pde/PdeBoundaryCondition_Imp.hpp 23-28: the default condition, BT_GENERIC_FIXED_VALUE = 0, without values. *)
Definition default_cond : cond := Cond 0 zempty.

(** pde/PdeBoundaryCondition_Imp.hpp 59-63: addCondition. *)
Definition add_condition (b : cond) (t : Z) (v : Q) : cond := Cond (c_type b) (zinsert t v (c_values b)).

(** pde/PdeBoundaryCondition_Imp.hpp 71-75: conditionValue, operator[] of the map: a missing one is created as 0. *)
Definition condition_value (b : cond) (t : Z) : Q * cond :=
  match zlookup t (c_values b) with
  | Some v => (v, b)
  | None => (0%Q, add_condition b t 0%Q)
  end.

(** material/MatMaterial.hpp: m_property (properties by their number). *)
Definition material : Type := zmap Q.

(** std::map with keys std::pair<Integer, Integer>. The order of the pairs is not kept: it cannot be seen through the calls below. *)
Definition pmap (A : Type) : Type := list ((Z * Z) * A).

(** find of a pair. *)
Fixpoint plookup {A : Type} (k : Z * Z) (m : pmap A) : option A :=
  match m with
  | [] => None
  | (k', v) :: m' => if (fst k =? fst k') && (snd k =? snd k') then Some v else plookup k m'
  end.

(** m[k] = v for a pair. *)
Fixpoint pinsert {A : Type} (k : Z * Z) (v : A) (m : pmap A) : pmap A :=
  match m with
  | [] => [(k, v)]
  | (k', v') :: m' => if (fst k =? fst k') && (snd k =? snd k') then (k, v) :: m' else (k', v') :: pinsert k v m'
  end.

(** pde/PdeField.hpp 57-82. An entry of u that was never written is [None]: reading it is reading uninitialised memory. *)
Record field := Field
  { f_dofs : Z;
    f_u : list (option Q);
    f_fixed : zmap Q;
    f_source : zmap Q;
    f_materials : zmap material;
    f_nodes : zmap cond;
    f_faces : zmap cond;
    f_elements : pmap cond }.

(** pde/PdeField_Imp.hpp 16-24: the constructor. *)
Definition new_field : field := Field 0 [] zempty zempty zempty zempty zempty [].

(** One field replaced by a new content (not in the code; C++ assigns the member). *)
Definition with_dofs (f : field) x := Field x (f_u f) (f_fixed f) (f_source f) (f_materials f) (f_nodes f) (f_faces f) (f_elements f).
Definition with_u (f : field) x := Field (f_dofs f) x (f_fixed f) (f_source f) (f_materials f) (f_nodes f) (f_faces f) (f_elements f).
Definition with_fixed (f : field) x := Field (f_dofs f) (f_u f) x (f_source f) (f_materials f) (f_nodes f) (f_faces f) (f_elements f).
Definition with_source (f : field) x := Field (f_dofs f) (f_u f) (f_fixed f) x (f_materials f) (f_nodes f) (f_faces f) (f_elements f).
Definition with_materials (f : field) x := Field (f_dofs f) (f_u f) (f_fixed f) (f_source f) x (f_nodes f) (f_faces f) (f_elements f).
Definition with_nodes (f : field) x := Field (f_dofs f) (f_u f) (f_fixed f) (f_source f) (f_materials f) x (f_faces f) (f_elements f).
Definition with_faces (f : field) x := Field (f_dofs f) (f_u f) (f_fixed f) (f_source f) (f_materials f) (f_nodes f) x (f_elements f).
Definition with_elements (f : field) x := Field (f_dofs f) (f_u f) (f_fixed f) (f_source f) (f_materials f) (f_nodes f) (f_faces f) x.

(** The calls on a field. The last three are addCondition through the reference returned by nodeBC, faceBC and elementBC. *)
Inductive call :=
| SetNbDofs (d : Z)
| SetSize (n : Z)
| SetValue (i : Z) (v : Q)
| SetFixed (i : Z) (v : Q)
| SetFixedDof (i j : Z) (v : Q)
| SetSource (i : Z) (v : Q)
| SetSourceDof (i j : Z) (v : Q)
| AddMaterial (e : Z) (m : material)
| AskMaterial (e : Z)
| AddNode (n : Z) (b : cond)
| AskNode (n : Z)
| AddFace (n : Z) (b : cond)
| AskFace (n : Z)
| AddElement (e i : Z) (b : cond)
| AskElement (e i : Z)
| ConditionNode (n t : Z) (v : Q)
| ConditionFace (n t : Z) (v : Q)
| ConditionElement (e i t : Z) (v : Q).

(** pde/PdeField_Imp.hpp 124-128: u.resize(aSize) of an Eigen vector: nothing happens if the size is the same, else
    all the content is undefined. A negative size breaks Eigen's precondition. *)
Definition resized (u : list (option Q)) (n : Z) : outcome (list (option Q)) :=
  if n <? 0 then UB
  else if n =? zlen u then Ok u
  else Ok (repeat None (Z.to_nat n)).

(** pde/PdeField_Imp.hpp 130-134: u(anIndex) = aValue; out of range is undefined behaviour. *)
Definition written (u : list (option Q)) (i : Z) (v : Q) : outcome (list (option Q)) :=
  _ <- vec_get u i ;; Ok (firstn (Z.to_nat i) u ++ Some v :: skipn (S (Z.to_nat i)) u).

(** pde/PdeField_Imp.hpp 136-140: value. *)
Definition value (f : field) (i : Z) : outcome Q :=
  x <- vec_get (f_u f) i ;; match x with Some v => Ok v | None => UB end.

(** pde/PdeField_Imp.hpp 239-243: elementBC, operator[] of the map: a missing condition is created by default. *)
Definition element_bc (f : field) (e i : Z) : cond * field :=
  match plookup (e, i) (f_elements f) with
  | Some b => (b, f)
  | None => (default_cond, with_elements f (pinsert (e, i) default_cond (f_elements f)))
  end.

(** pde/PdeField_Imp.hpp 67-71, 124-243: the calls; nodeBC (200-204), faceBC (219-223) and material(e) (181-185) are [at], which throws. *)
Definition step (f : field) (c : call) : outcome field :=
  match c with
  | SetNbDofs d => Ok (with_dofs f d)
  | SetSize n => u <- resized (f_u f) n ;; Ok (with_u f u)
  | SetValue i v => u <- written (f_u f) i v ;; Ok (with_u f u)
  | SetFixed i v => Ok (with_fixed f (zinsert i v (f_fixed f)))
  | SetFixedDof i j v => Ok (with_fixed f (zinsert (i * f_dofs f + j) v (f_fixed f)))
  | SetSource i v => Ok (with_source f (zinsert i v (f_source f)))
  | SetSourceDof i j v => Ok (with_source f (zinsert (i * f_dofs f + j) v (f_source f)))
  | AddMaterial e m => Ok (with_materials f (zinsert e m (f_materials f)))
  | AskMaterial e => _ <- zat (f_materials f) e ;; Ok f
  | AddNode n b => Ok (with_nodes f (zinsert n b (f_nodes f)))
  | AskNode n => _ <- zat (f_nodes f) n ;; Ok f
  | AddFace n b => Ok (with_faces f (zinsert n b (f_faces f)))
  | AskFace n => _ <- zat (f_faces f) n ;; Ok f
  | AddElement e i b => Ok (with_elements f (pinsert (e, i) b (f_elements f)))
  | AskElement e i => Ok (snd (element_bc f e i))
  | ConditionNode n t v => b <- zat (f_nodes f) n ;; Ok (with_nodes f (zinsert n (add_condition b t v) (f_nodes f)))
  | ConditionFace n t v => b <- zat (f_faces f) n ;; Ok (with_faces f (zinsert n (add_condition b t v) (f_faces f)))
  | ConditionElement e i t v =>
      Ok (with_elements f (pinsert (e, i) (add_condition (fst (element_bc f e i)) t v) (f_elements f)))
  end.

(** A sequence of calls. *)
Definition run (f : field) (l : list call) : outcome field := foldM step l f.

(** pde/PdeField_Imp.hpp 176-179, 194-198, 213-217, 232-236: hasMaterial, nodeHasBC, faceHasBC, elementHasBC. *)
Definition has_material (f : field) (e : Z) : bool := match zlookup e (f_materials f) with Some _ => true | None => false end.
Definition node_has (f : field) (n : Z) : bool := match zlookup n (f_nodes f) with Some _ => true | None => false end.
Definition face_has (f : field) (n : Z) : bool := match zlookup n (f_faces f) with Some _ => true | None => false end.
Definition element_has (f : field) (e i : Z) : bool := match plookup (e, i) (f_elements f) with Some _ => true | None => false end.

(** Segments, vertex lists and line lists.
    Paths are relative to /repo/trunk/src. Real is Q (no rounding). *)
From Coq Require Import QArith Qabs ZArith List Bool.
From Verif Require Import Prelude Vec.
Import ListNotations.
Open Scope Q_scope.

(** geometry/GeoLine.hpp 25-40: m_startPoint, m_endPoint, m_vector. The cached length and bounding
    box (GeoLength.hpp) are left out. *)
Record segment : Type := Segment { s_start : coord; s_end : coord; s_vec : coord }.

(** geometry/GeoLine_Imp.hpp 23-29: CGeoLine(aPoint1, aPoint2). *)
Definition line_of (p1 p2 : coord) : segment := Segment p1 p2 (vsub p2 p1).

(** geometry/GeoLine_Imp.hpp 18-21: CGeoLine(); CGeoCoordinate and CGeoVector default to zero
    (GeoCoordinate.hpp 25). *)
Definition line_default : segment := Segment vzero vzero vzero.

(** geometry/GeoLine_Imp.hpp 42-46: only the start point changes. *)
Definition set_start (s : segment) (p : coord) : segment := Segment p (s_end s) (s_vec s).

(** geometry/GeoLine_Imp.hpp 48-53: the end point and the vector change. *)
Definition set_end (s : segment) (p : coord) : segment := Segment (s_start s) p (vsub p (s_start s)).

(** geometry/GeoLine_Imp.hpp 73-77. *)
Definition mid_point (s : segment) (f : Q) : coord := vadd (s_start s) (vscale f (s_vec s)).

(** geometry/GeoLine_Imp.hpp 473-480: start += vector; end -= vector; vector *= -1. *)
Definition line_invert (s : segment) : segment :=
  Segment (vadd (s_start s) (s_vec s)) (vsub (s_end s) (s_vec s)) (vopp (s_vec s)).

(** geometry/GeoPlane_Imp.hpp 24-29, 40-60: a plane n.x = d; the normal is stored as given. *)
Record plane : Type := Plane { p_normal : coord; p_d : Q }.

(** geometry/GeoPlane_Imp.hpp invert(): both the normal and d change sign. *)
Definition plane_invert (h : plane) : plane := Plane (vscale (-1) (p_normal h)) (p_d h * -1).

(** geometry/GeoLine_Imp.hpp 104-163: clip(). *)
Definition clip (s : segment) (h : plane) (tol : Q) : segment :=
  let den := dot (p_normal h) (s_vec s) in
  let num := dot (p_normal h) (s_start s) in
  let d := p_d h in
  let whole := (s_start s, vadd (s_start s) (s_vec s)) in
  let none := (s_start s, s_start s) in
  let pq :=
    if Qlt_bool tol (Qabs den) then
      let alpha := (d - num) / den in
      if Qle_bool 0 alpha && Qle_bool alpha 1 then
        if Qlt_bool 0 den then (s_start s, vadd (s_start s) (vscale alpha (s_vec s)))
        else (vadd (s_start s) (vscale alpha (s_vec s)), vadd (s_start s) (s_vec s))
      else if Qlt_bool num d then whole else none
    else if Qlt_bool num d then whole else none in
  set_end (set_start line_default (fst pq)) (snd pq).

(** geometry/GeoLine_Imp.hpp 165-197: intersects(plane): [None] when it returns false, otherwise the
    point and whether the type is IT_VERTEX (otherwise IT_INTERNAL). *)
Definition cut_plane (s : segment) (h : plane) (tol : Q) : option (coord * bool) :=
  let n := p_normal h in
  let p3 := vscale (p_d h) n in
  let u := vsub p3 (s_start s) in
  let d := dot n (s_vec s) in
  if Qle_bool (Qabs d) (tol * tol) then None
  else
    let k := dot n u / d in
    if Qle_bool (- tol) k && Qle_bool k (1 + tol) then
      Some (vadd (s_start s) (vscale k (s_vec s)), Qle_bool k tol || Qle_bool (1 - tol) k)
    else None.

(** geometry/GeoLine_Imp.hpp 404-430: distance(point): [None] when it returns false, otherwise
    aNewPoint and the square of aDistance (the square root is not modelled). *)
Definition dist_point (s : segment) (p : coord) (tol : Q) : option (coord * Q) :=
  let v := s_vec s in
  let w := vsub p (s_start s) in
  let d := dot v v in
  if Qlt_bool (tol * tol) (Qabs d) then
    let k := dot w v / d in
    let q := if Qle_bool (- tol) k && Qle_bool k (1 + tol) then vadd (s_start s) (vscale k v)
             else if Qlt_bool k (- tol) then s_start s
             else s_end s in
    Some (q, norm2 (vsub p q))
  else None.

(** geometry/GeoLine_Imp.hpp 432-471: distance(line): [None] when it returns false, otherwise
    aPoint1, aPoint2 and the square of aDistance. *)
Definition dist_line (s r : segment) (tol : Q) : option (coord * coord * Q) :=
  let v21 := s_vec s in
  let v43 := s_vec r in
  let d4343 := dot v43 v43 in
  let v13 := vsub (s_start s) (s_start r) in
  let d1343 := dot v13 v43 in
  let d4321 := dot v43 v21 in
  let d1321 := dot v13 v21 in
  let d2121 := dot v21 v21 in
  let den := d2121 * d4343 - d4321 * d4321 in
  let num := d1343 * d4321 - d1321 * d4343 in
  if Qle_bool (Qabs den) tol then None
  else
    let mua0 := num / den in
    let mua1 := if Qlt_bool mua0 (- tol) then 0 else mua0 in
    let mua := if Qlt_bool (1 + tol) mua1 then 1 else mua1 in
    let mub := (d1343 + d4321 * mua) / d4343 in
    let p1 := vadd (s_start s) (vscale mua v21) in
    let p2 := vadd (s_start r) (vscale mub v43) in
    Some (p1, p2, norm2 (vsub p2 p1)).

(** ** Vertex lists (geometry/GeoVertexList_Imp.hpp) *)

(** Eigen operator== on 3-vectors: coefficientwise equality (GeoCoordinate.hpp adds no operator of
    its own). *)
Definition coord_eqb (a b : coord) : bool :=
  Qeq_bool (cx a) (cx b) && Qeq_bool (cy a) (cy b) && Qeq_bool (cz a) (cz b).

(** [v[i]] with an Integer index reduced by [% size()]: the index is converted to an unsigned
    64-bit integer first. *)
Definition wrap_index {A : Type} (l : list A) (i : Z) : nat :=
  Z.to_nat ((i mod 2 ^ 64) mod zlen l)%Z.

(** GeoVertexList_Imp.hpp 65-74: vertex(): throws on an empty list. *)
Definition vl_vertex (l : list coord) (i : Z) : outcome coord :=
  match l with
  | [] => Throw
  | _ => match nth_error l (wrap_index l i) with Some v => Ok v | None => UB end
  end.

(** Assignment to position i of a vector, in range. *)
Fixpoint put {A : Type} (l : list A) (i : nat) (a : A) : list A :=
  match l, i with
  | [], _ => []
  | _ :: l', O => a :: l'
  | b :: l', S i' => b :: put l' i' a
  end.

(** GeoVertexList_Imp.hpp 59-63: setVertex(): the remainder by zero is undefined on an empty list. *)
Definition vl_set (l : list coord) (i : Z) (v : coord) : outcome (list coord) :=
  match l with
  | [] => UB
  | _ => Ok (put l (wrap_index l i) v)
  end.

(** GeoVertexList_Imp.hpp 47-51: insert(begin() + i): undefined unless 0 <= i <= size. *)
Definition vl_insert (l : list coord) (i : Z) (v : coord) : outcome (list coord) :=
  if (i <? 0)%Z || (zlen l <? i)%Z then UB
  else Ok (firstn (Z.to_nat i) l ++ v :: skipn (Z.to_nat i) l).

(** GeoVertexList_Imp.hpp 53-57: erase(begin() + i): undefined unless 0 <= i < size. *)
Definition vl_remove (l : list coord) (i : Z) : outcome (list coord) :=
  if (i <? 0)%Z || (zlen l <=? i)%Z then UB
  else Ok (firstn (Z.to_nat i) l ++ skipn (S (Z.to_nat i)) l).

(** GeoVertexList_Imp.hpp 113-117: std::reverse. *)
Definition vl_invert (l : list coord) : list coord := rev l.

(** GeoVertexList_Imp.hpp 76-80: erase(std::unique(begin, end), end). std::unique compares each
    element with the last one it kept. *)
Fixpoint unique_from (last : coord) (l : list coord) : list coord :=
  match l with
  | [] => []
  | v :: l' => if coord_eqb last v then unique_from last l' else v :: unique_from v l'
  end.
Definition vl_remove_duplicates (l : list coord) : list coord :=
  match l with
  | [] => []
  | v :: l' => v :: unique_from v l'
  end.

(** GeoVertexList_Imp.hpp 92-106: the in-place scan of removeCollinear(). [turns v1 v2] stands for
    [v1.angle(v2) > aTolerance]; the angle itself (an arc cosine) is not modelled, so every
    statement holds for any such test. The state is the array and the write position j. *)
Definition collinear_step (turns : coord -> coord -> bool) (st : list coord * nat) (i : nat) : list coord * nat :=
  let '(a, j) := st in
  let at_ k := nth (Nat.modulo k (length a)) a vzero in
  let v1 := vsub (at_ (i + 1)%nat) (at_ i) in
  let v2 := vsub (at_ i) (at_ (i - 1)%nat) in
  if turns v1 v2 then (put a j (nth i a vzero), S j) else (a, j).

(** GeoVertexList_Imp.hpp 82-111: removeCollinear(). The write at 108 is out of range, hence
    undefined, when j reached the size. *)
Definition vl_remove_collinear (turns : coord -> coord -> bool) (l : list coord) : outcome (list coord) :=
  match l with
  | [] => Ok []
  | _ =>
    let '(a, j) := fold_left (collinear_step turns) (seq 1 (length l - 2)) (l, 1%nat) in
    if Nat.ltb j (length a) then Ok (firstn (S j) (put a j (nth (length a - 1) a vzero)))
    else UB
  end.

(** ** Line lists (geometry/GeoLineList_Imp.hpp) *)

(** std::swap of two positions. *)
Definition swap_at {A : Type} (d : A) (l : list A) (i j : nat) : list A :=
  put (put l i (nth j l d)) j (nth i l d).

(** Positions read below are in range by the loop bounds; [line_default] is never returned. *)
Definition line_at (l : list segment) (i : nat) : segment := nth i l line_default.

(** GeoLineList_Imp.hpp 81-95: one pass of the inner loop of sort(). The second test reads m_lines[j]
    again, after a possible swap. *)
Definition sort_step (tol : Q) (i : nat) (l : list segment) (j : nat) : list segment :=
  let l1 := if norm_le (vsub (s_start (line_at l j)) (s_end (line_at l i))) tol then
              if Nat.eqb (i + 1) j then l else swap_at line_default l (i + 1) j
            else l in
  if norm_le (vsub (s_end (line_at l1 j)) (s_end (line_at l1 i))) tol then
    let l2 := put l1 j (line_invert (line_at l1 j)) in
    if Nat.eqb (i + 1) j then l2 else swap_at line_default l2 (i + 1) j
  else l1.

(** GeoLineList_Imp.hpp 79-96: the inner loop, j = i+1 .. size-1. *)
Definition sort_inner (tol : Q) (l : list segment) (i : nat) : list segment :=
  fold_left (sort_step tol i) (seq (i + 1) (length l - (i + 1))) l.

(** GeoLineList_Imp.hpp 74-98: sort(). *)
Definition line_sort (tol : Q) (l : list segment) : list segment :=
  fold_left (sort_inner tol) (seq 0 (length l)) l.

(** GeoLineList_Imp.hpp 100-107: invert(). *)
Definition lines_invert (l : list segment) : list segment := map line_invert (rev l).

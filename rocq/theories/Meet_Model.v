(** Model of contains and intersects of CGeoLine for two lines (geometry/GeoLine_Imp.hpp 216-402) and of the angle of two vectors
    (geometry/GeoVector_Imp.hpp 17-32). Arithmetic is exact over R; [eps] is std::numeric_limits<Real>::epsilon(). Lines are those made from two
    points: m_vector is the difference (Seg_Model tells when it is not). *)
From Coq Require Import Reals List Lra Bool.
From Verif Require Import Fem_Model.
Import ListNotations.
Open Scope R_scope.

(** The types of intersection that occur. *)
Inductive meeting := Same | Inside | AtEnd.

Definition leb (x y : R) : bool := if Rle_dec x y then true else false.
Definition ltb (x y : R) : bool := if Rlt_dec x y then true else false.

(** GeoVector_Imp.hpp 17-32: angle(). *)
Definition angle (eps : R) (u v : pt) : R :=
  let rad := if ltb eps (pdot u u) && ltb eps (pdot v v) then pdot u v / sqrt (pdot u u * pdot v v) else 0 in
  let rad := if ltb rad (-1) then -1 else rad in
  let rad := if ltb 1 rad then 1 else rad in
  acos rad.

(** 375-402: contains(). 1 degree is 3.14 / 180. *)
Definition line_contains (eps : R) (p q x : pt) (tol : R) : option meeting :=
  let w := psub q p in
  let v := psub x p in
  if ltb (314 / 100 / 180) (angle eps w v) then None
  else let s := pdot (pnormalize w) v / pnorm w in
    if leb (- tol) s && leb s (1 + tol) then Some (if leb s tol || leb (1 - tol) s then AtEnd else Inside) else None.

(** GeoBoundingBox_Imp.hpp 84-89 for boxes of two points: one axis. *)
Definition axis (x y x' y' tol : R) : bool := leb (Rmin x y - tol) (Rmax x' y') && leb (Rmin x' y') (Rmax x y + tol).

Definition line_boxes (p q p' q' : pt) (tol : R) : bool :=
  axis (px p) (px q) (px p') (px q') tol && axis (py p) (py q) (py p') (py q') tol && axis (pz p) (pz q) (pz p') (pz q') tol.

(** 263-330: lines that are parallel, up to the tolerance. *)
Definition meet_parallel (eps : R) (p q p' q' : pt) (tol : R) : option (pt * meeting) :=
  let da := psub q p in let db := psub q' p' in
  let near a b := leb (pnorm (psub a b)) tol in
  if near p p' || near q q' then
    if leb (tol * tol) (pdot db da) then Some (p, Inside) else Some (if near q q' then q else p, AtEnd)
  else if near p q' || near q p' then
    if leb (tol * tol) (- pdot db da) then Some (p, Inside) else Some (if near q p' then q else p, AtEnd)
  else match line_contains eps p q p' tol with Some _ => Some (p', Inside) | None =>
       match line_contains eps p q q' tol with Some _ => Some (q', Inside) | None =>
       match line_contains eps p' q' p tol with Some _ => Some (p, Inside) | None =>
       match line_contains eps p' q' q tol with Some _ => Some (q, Inside) | None => None end end end end.

(** 331-369: lines that are not parallel. *)
Definition meet_crossing (eps : R) (p q p' q' : pt) (tol : R) : option (pt * meeting) :=
  let da := psub q p in let db := psub q' p' in let dc := psub p' p in let dd := pcross da db in
  let near a b := leb (pnorm (psub a b)) tol in
  if near p p' || near q q' then Some (if near q q' then q else p, AtEnd)
  else if near p q' || near q p' then Some (if near q p' then q else p, AtEnd)
  else let s := pdot (pcross dc db) dd / pdot dd dd in
    if leb (- tol) s && leb s (1 + tol) then
      let x := P (px p + s * px da) (py p + s * py da) (pz p + s * pz da) in
      match line_contains eps p' q' x tol with
      | Some k => Some (x, if ltb tol s && ltb s (1 - tol) then Inside else k)
      | None => None
      end
    else None.

(** 216-372: intersects(aLine, aPoint, anIntersectionType, aTolerance) of the line from [p] to [q] with the line from [p'] to [q']. *)
Definition meet (eps : R) (p q p' q' : pt) (tol : R) : option (pt * meeting) :=
  let da := psub q p in let db := psub q' p' in let dc := psub p' p in let dd := pcross da db in
  let near a b := leb (pnorm (psub a b)) tol in
  if negb (line_boxes p q p' q' tol) then None
  else if ltb tol (Rabs (pdot dc dd)) then None
  else if near p p' && near q q' then Some (p, Same)
  else if near p q' && near q p' then Some (p, Same)
  else if leb (pdot dd dd) (tol * tol) then meet_parallel eps p q p' q' tol
  else meet_crossing eps p q p' q' tol.

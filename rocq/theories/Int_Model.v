(** Quadrature rules (trunk/src/integration). A rule is a list of points, each with its coordinates and its weights along the
    axes; the users of the rules (trunk/src/fem/FemQuadrilateral_Imp.hpp 104-131, FemHexahedron_Imp.hpp 83-139,
    FemTriangularPrism_Imp.hpp 116, trunk/src/bem/BemTriangle_Imp.hpp 43-49) multiply the weights. The decimal literals are
    taken as exact rationals; entries the code leaves unset are zero (std::vector::resize). *)
From Coq Require Import QArith ZArith List.
Import ListNotations.
Open Scope Q_scope.

(** One integration point: coordinates m_xi[p], m_eta[p], m_zeta[p] (or m_beta1..3) and weights m_wxi[p], m_weta[p], m_wzeta[p] (or m_wbeta). *)
Record ipoint := IPoint { ip_at : list Q; ip_w : list Q }.
(** Product of the weights of a point, as in FemHexahedron_Imp.hpp 135. *)
Definition iweight (p : ipoint) : Q := fold_right Qmult 1 (ip_w p).
(** The loop over the points: sum of weight times integrand (FemHexahedron_Imp.hpp 83-139, BemTriangle_Imp.hpp 110-120). *)
Definition integrate (rule : list ipoint) (f : list Q -> Q) : Q := fold_right (fun p a => iweight p * f (ip_at p) + a) 0 rule.
(** resize() without a matching case: n points at the origin with weight zero. *)
Definition unset (dim : nat) (n : Z) : list ipoint := repeat (IPoint (repeat 0 dim) (repeat 0 dim)) (Z.to_nat n).

(** IntBeam_Imp.hpp 36-40. *)
Definition beam1 : list ipoint :=
  [ IPoint [0] [2] ].
(** IntBeam_Imp.hpp 42-48. *)
Definition beam2 : list ipoint :=
  [ IPoint [(-1443375673 # 2500000000)] [1];
    IPoint [(1443375673 # 2500000000)] [1] ].
(** IntBeam_Imp.hpp 50-58. The first weight is written twice and the last never. *)
Definition beam3 : list ipoint :=
  [ IPoint [0] [(1111111111 # 2000000000)];
    IPoint [(-1936491673 # 2500000000)] [(1111111111 # 2000000000)];
    IPoint [(1936491673 # 2500000000)] [0] ].
(** IntBeam_Imp.hpp 60-70. *)
Definition beam4 : list ipoint :=
  [ IPoint [(-849952609 # 2500000000)] [(6521451549 # 10000000000)];
    IPoint [(849952609 # 2500000000)] [(6521451549 # 10000000000)];
    IPoint [(-2152840779 # 2500000000)] [(3478548451 # 10000000000)];
    IPoint [(2152840779 # 2500000000)] [(3478548451 # 10000000000)] ].
(** IntBeam_Imp.hpp 72-86. *)
Definition beam6 : list ipoint :=
  [ IPoint [(-1322418773 # 2000000000)] [(3607615731 # 10000000000)];
    IPoint [(1322418773 # 2000000000)] [(3607615731 # 10000000000)];
    IPoint [(-2386191861 # 10000000000)] [(2339569673 # 5000000000)];
    IPoint [(2386191861 # 10000000000)] [(2339569673 # 5000000000)];
    IPoint [(-4662347571 # 5000000000)] [(428311231 # 2500000000)];
    IPoint [(4662347571 # 5000000000)] [(428311231 # 2500000000)] ].
(** IntBeam_Imp.hpp 27-88: the switch. *)
Definition beam_rule (n : Z) : list ipoint :=
  match n with 1%Z => beam1 | 2%Z => beam2 | 3%Z => beam3 | 4%Z => beam4 | 6%Z => beam6 | _ => unset 1 n end.

(** IntQuadrilateral_Imp.hpp 38-44. *)
Definition quad1 : list ipoint :=
  [ IPoint [0; 0] [2; 2] ].
(** IntQuadrilateral_Imp.hpp 46-64. *)
Definition quad4 : list ipoint :=
  [ IPoint [(-1443375673 # 2500000000); (-1443375673 # 2500000000)] [1; 1];
    IPoint [(1443375673 # 2500000000); (-1443375673 # 2500000000)] [1; 1];
    IPoint [(-1443375673 # 2500000000); (1443375673 # 2500000000)] [1; 1];
    IPoint [(1443375673 # 2500000000); (1443375673 # 2500000000)] [1; 1] ].
(** IntQuadrilateral_Imp.hpp 66-101. The comment in the code: TODO: CHECK THIS! *)
Definition quad8 : list ipoint :=
  [ IPoint [(-1936491673 # 2500000000); (-1936491673 # 2500000000)] [(1388888889 # 2500000000); (1388888889 # 2500000000)];
    IPoint [(1936491673 # 2500000000); (-1936491673 # 2500000000)] [(1388888889 # 2500000000); (1388888889 # 2500000000)];
    IPoint [(-1936491673 # 2500000000); (1936491673 # 2500000000)] [(1388888889 # 2500000000); (1388888889 # 2500000000)];
    IPoint [(1936491673 # 2500000000); (1936491673 # 2500000000)] [(1388888889 # 2500000000); (1388888889 # 2500000000)];
    IPoint [(-1936491673 # 2500000000); 0] [(1388888889 # 2500000000); (8888888889 # 10000000000)];
    IPoint [(1936491673 # 2500000000); 0] [(1388888889 # 2500000000); (8888888889 # 10000000000)];
    IPoint [0; (-1936491673 # 2500000000)] [(8888888889 # 10000000000); (1388888889 # 2500000000)];
    IPoint [0; (-1936491673 # 2500000000)] [(8888888889 # 10000000000); (1388888889 # 2500000000)] ].
(** IntQuadrilateral_Imp.hpp 27-103: the switch. *)
Definition quad_rule (n : Z) : list ipoint :=
  match n with 1%Z => quad1 | 4%Z => quad4 | 8%Z => quad8 | _ => unset 2 n end.

(** IntHexahedron_Imp.hpp 40-48. *)
Definition hexa1 : list ipoint :=
  [ IPoint [0; 0; 0] [2; 2; 2] ].
(** IntHexahedron_Imp.hpp 50-100. *)
Definition hexa8 : list ipoint :=
  [ IPoint [(-1443375673 # 2500000000); (-1443375673 # 2500000000); (-1443375673 # 2500000000)] [1; 1; 1];
    IPoint [(1443375673 # 2500000000); (-1443375673 # 2500000000); (-1443375673 # 2500000000)] [1; 1; 1];
    IPoint [(-1443375673 # 2500000000); (1443375673 # 2500000000); (-1443375673 # 2500000000)] [1; 1; 1];
    IPoint [(1443375673 # 2500000000); (1443375673 # 2500000000); (-1443375673 # 2500000000)] [1; 1; 1];
    IPoint [(-1443375673 # 2500000000); (-1443375673 # 2500000000); (1443375673 # 2500000000)] [1; 1; 1];
    IPoint [(1443375673 # 2500000000); (-1443375673 # 2500000000); (1443375673 # 2500000000)] [1; 1; 1];
    IPoint [(-1443375673 # 2500000000); (1443375673 # 2500000000); (1443375673 # 2500000000)] [1; 1; 1];
    IPoint [(1443375673 # 2500000000); (1443375673 # 2500000000); (1443375673 # 2500000000)] [1; 1; 1] ].
(** IntHexahedron_Imp.hpp 102-266. *)
Definition hexa27 : list ipoint :=
  [ IPoint [(-1936491673 # 2500000000); (-1936491673 # 2500000000); (-1936491673 # 2500000000)] [(1388888889 # 2500000000); (1388888889 # 2500000000); (1388888889 # 2500000000)];
    IPoint [(1936491673 # 2500000000); (-1936491673 # 2500000000); (-1936491673 # 2500000000)] [(1388888889 # 2500000000); (1388888889 # 2500000000); (1388888889 # 2500000000)];
    IPoint [(-1936491673 # 2500000000); (1936491673 # 2500000000); (-1936491673 # 2500000000)] [(1388888889 # 2500000000); (1388888889 # 2500000000); (1388888889 # 2500000000)];
    IPoint [(1936491673 # 2500000000); (1936491673 # 2500000000); (-1936491673 # 2500000000)] [(1388888889 # 2500000000); (1388888889 # 2500000000); (1388888889 # 2500000000)];
    IPoint [(-1936491673 # 2500000000); 0; (-1936491673 # 2500000000)] [(1388888889 # 2500000000); (8888888889 # 10000000000); (1388888889 # 2500000000)];
    IPoint [(1936491673 # 2500000000); 0; (-1936491673 # 2500000000)] [(1388888889 # 2500000000); (8888888889 # 10000000000); (1388888889 # 2500000000)];
    IPoint [0; (-1936491673 # 2500000000); (-1936491673 # 2500000000)] [(8888888889 # 10000000000); (1388888889 # 2500000000); (1388888889 # 2500000000)];
    IPoint [0; (-1936491673 # 2500000000); (-1936491673 # 2500000000)] [(8888888889 # 10000000000); (1388888889 # 2500000000); (1388888889 # 2500000000)];
    IPoint [0; 0; (-1936491673 # 2500000000)] [(8888888889 # 10000000000); (8888888889 # 10000000000); (1388888889 # 2500000000)];
    IPoint [(-1936491673 # 2500000000); (-1936491673 # 2500000000); (1936491673 # 2500000000)] [(1388888889 # 2500000000); (1388888889 # 2500000000); (1388888889 # 2500000000)];
    IPoint [(1936491673 # 2500000000); (-1936491673 # 2500000000); (1936491673 # 2500000000)] [(1388888889 # 2500000000); (1388888889 # 2500000000); (1388888889 # 2500000000)];
    IPoint [(-1936491673 # 2500000000); (1936491673 # 2500000000); (1936491673 # 2500000000)] [(1388888889 # 2500000000); (1388888889 # 2500000000); (1388888889 # 2500000000)];
    IPoint [(1936491673 # 2500000000); (1936491673 # 2500000000); (1936491673 # 2500000000)] [(1388888889 # 2500000000); (1388888889 # 2500000000); (1388888889 # 2500000000)];
    IPoint [(-1936491673 # 2500000000); 0; (1936491673 # 2500000000)] [(1388888889 # 2500000000); (8888888889 # 10000000000); (1388888889 # 2500000000)];
    IPoint [(1936491673 # 2500000000); 0; (1936491673 # 2500000000)] [(1388888889 # 2500000000); (8888888889 # 10000000000); (1388888889 # 2500000000)];
    IPoint [0; (-1936491673 # 2500000000); (1936491673 # 2500000000)] [(8888888889 # 10000000000); (1388888889 # 2500000000); (1388888889 # 2500000000)];
    IPoint [0; (-1936491673 # 2500000000); (1936491673 # 2500000000)] [(8888888889 # 10000000000); (1388888889 # 2500000000); (1388888889 # 2500000000)];
    IPoint [0; 0; (1936491673 # 2500000000)] [(8888888889 # 10000000000); (8888888889 # 10000000000); (1388888889 # 2500000000)];
    IPoint [(-1936491673 # 2500000000); (-1936491673 # 2500000000); 0] [(1388888889 # 2500000000); (1388888889 # 2500000000); (8888888889 # 10000000000)];
    IPoint [(1936491673 # 2500000000); (-1936491673 # 2500000000); 0] [(1388888889 # 2500000000); (1388888889 # 2500000000); (8888888889 # 10000000000)];
    IPoint [(-1936491673 # 2500000000); (1936491673 # 2500000000); 0] [(1388888889 # 2500000000); (1388888889 # 2500000000); (8888888889 # 10000000000)];
    IPoint [(1936491673 # 2500000000); (1936491673 # 2500000000); 0] [(1388888889 # 2500000000); (1388888889 # 2500000000); (8888888889 # 10000000000)];
    IPoint [(-1936491673 # 2500000000); 0; 0] [(1388888889 # 2500000000); (8888888889 # 10000000000); (8888888889 # 10000000000)];
    IPoint [(1936491673 # 2500000000); 0; 0] [(1388888889 # 2500000000); (8888888889 # 10000000000); (8888888889 # 10000000000)];
    IPoint [0; (-1936491673 # 2500000000); 0] [(8888888889 # 10000000000); (1388888889 # 2500000000); (8888888889 # 10000000000)];
    IPoint [0; (-1936491673 # 2500000000); 0] [(8888888889 # 10000000000); (1388888889 # 2500000000); (8888888889 # 10000000000)];
    IPoint [0; 0; 0] [(8888888889 # 10000000000); (8888888889 # 10000000000); (8888888889 # 10000000000)] ].
(** IntHexahedron_Imp.hpp 27-268: the switch. *)
Definition hexa_rule (n : Z) : list ipoint :=
  match n with 1%Z => hexa1 | 8%Z => hexa8 | 27%Z => hexa27 | _ => unset 3 n end.

(** IntTriangularPrism_Imp.hpp 37-45. *)
Definition prism1 : list ipoint :=
  [ IPoint [0; 0; 0] [2; 2; 2] ].
(** IntTriangularPrism_Imp.hpp 47-85. [r] stands for the value computed for 1 / sqrt(3). *)
Definition prism6 (r : Q) : list ipoint :=
  [ IPoint [(1 # 6); (1 # 6); (- r)] [(1 # 2); (1 # 2); (1 # 2)];
    IPoint [(1 # 3); (1 # 6); (- r)] [(1 # 2); (1 # 2); (1 # 2)];
    IPoint [(1 # 6); (1 # 3); (- r)] [(1 # 2); (1 # 2); (1 # 2)];
    IPoint [(1 # 6); (1 # 6); r] [(1 # 2); (1 # 2); (1 # 2)];
    IPoint [(1 # 3); (1 # 6); r] [(1 # 2); (1 # 2); (1 # 2)];
    IPoint [(1 # 6); (1 # 3); r] [(1 # 2); (1 # 2); (1 # 2)] ].
(** IntTriangularPrism_Imp.hpp 87-143. [r] stands for the value computed for sqrt(3) / sqrt(5). *)
Definition prism9 (r : Q) : list ipoint :=
  [ IPoint [(1 # 6); (1 # 6); (- r)] [(5 # 18); (5 # 18); (5 # 18)];
    IPoint [(1 # 3); (1 # 6); (- r)] [(5 # 18); (5 # 18); (5 # 18)];
    IPoint [(1 # 6); (1 # 3); (- r)] [(5 # 18); (5 # 18); (5 # 18)];
    IPoint [(1 # 6); (1 # 6); 0] [(4 # 9); (4 # 9); (4 # 9)];
    IPoint [(1 # 3); (1 # 6); 0] [(4 # 9); (4 # 9); (4 # 9)];
    IPoint [(1 # 6); (1 # 3); 0] [(4 # 9); (4 # 9); (4 # 9)];
    IPoint [(1 # 6); (1 # 6); r] [(5 # 18); (5 # 18); (5 # 18)];
    IPoint [(1 # 3); (1 # 6); r] [(5 # 18); (5 # 18); (5 # 18)];
    IPoint [(1 # 6); (1 # 3); r] [(5 # 18); (5 # 18); (5 # 18)] ].
(** IntTriangularPrism_Imp.hpp 25-145: the switch; [r3] and [r35] are the values computed for 1 / sqrt(3) and sqrt(3) / sqrt(5). *)
Definition prism_rule (r3 r35 : Q) (n : Z) : list ipoint :=
  match n with 1%Z => prism1 | 6%Z => prism6 r3 | 9%Z => prism9 r35 | _ => unset 3 n end.

(** IntTriangle_Imp.hpp 46-61: barycentric coordinates. *)
Definition tri1 : list ipoint :=
  [ IPoint [(333333333333333 # 1000000000000000); (333333333333333 # 1000000000000000); (333333333333333 # 1000000000000000)] [1] ].
(** IntTriangle_Imp.hpp 63-80: barycentric coordinates. *)
Definition tri3 : list ipoint :=
  [ IPoint [(1 # 2); 0; (1 # 2)] [1];
    IPoint [0; (1 # 2); (1 # 2)] [1];
    IPoint [(1 # 2); (1 # 2); 0] [1] ].
(** IntTriangle_Imp.hpp 82-99: barycentric coordinates. *)
Definition tri6 : list ipoint :=
  [ IPoint [(9157621350977 # 100000000000000); (91576213509771 # 1000000000000000); (816847572980459 # 1000000000000000)] [(54975871827661 # 1000000000000000)];
    IPoint [(915762135097701 # 10000000000000000); (816847572980459 # 1000000000000000); (91576213509771 # 1000000000000000)] [(54975871827661 # 1000000000000000)];
    IPoint [(408423786490229 # 500000000000000); (91576213509771 # 1000000000000000); (91576213509771 # 1000000000000000)] [(54975871827661 # 1000000000000000)];
    IPoint [(89189698183193 # 200000000000000); (89189698183193 # 200000000000000); (10810301816807 # 100000000000000)] [(111690794839 # 1000000000000)];
    IPoint [(89189698183193 # 200000000000000); (10810301816807 # 100000000000000); (89189698183193 # 200000000000000)] [(111690794839 # 1000000000000)];
    IPoint [(10810301816807 # 100000000000000); (89189698183193 # 200000000000000); (89189698183193 # 200000000000000)] [(111690794839 # 1000000000000)] ].
(** IntTriangle_Imp.hpp 101-117: barycentric coordinates. *)
Definition tri7 : list ipoint :=
  [ IPoint [(333333333333333 # 1000000000000000); (333333333333333 # 1000000000000000); (333333333333333 # 1000000000000000)] [(2250300003 # 20000000000)];
    IPoint [(101286507323457 # 1000000000000000); (1582601676929 # 15625000000000); (797426985353087 # 1000000000000000)] [(125939180544827 # 2000000000000000)];
    IPoint [(101286507323457 # 1000000000000000); (797426985353087 # 1000000000000000); (1582601676929 # 15625000000000)] [(125939180544827 # 2000000000000000)];
    IPoint [(6229898323071 # 7812500000000); (1582601676929 # 15625000000000); (1582601676929 # 15625000000000)] [(125939180544827 # 2000000000000000)];
    IPoint [(94028412821023 # 200000000000000); (5971587178977 # 100000000000000); (94028412821023 # 200000000000000)] [(66197076394253 # 1000000000000000)];
    IPoint [(94028412821023 # 200000000000000); (94028412821023 # 200000000000000); (5971587178977 # 100000000000000)] [(66197076394253 # 1000000000000000)];
    IPoint [(597158717897699 # 10000000000000000); (94028412821023 # 200000000000000); (94028412821023 # 200000000000000)] [(66197076394253 # 1000000000000000)] ].
(** IntTriangle_Imp.hpp 119-136: barycentric coordinates. *)
Definition tri12 : list ipoint :=
  [ IPoint [(31544507245751 # 500000000000000); (31544507245751 # 500000000000000); (218455492754249 # 250000000000000)] [(50844906370207 # 2000000000000000)];
    IPoint [(630890144915021 # 10000000000000000); (218455492754249 # 250000000000000); (31544507245751 # 500000000000000)] [(50844906370207 # 2000000000000000)];
    IPoint [(218455492754249 # 250000000000000); (31544507245751 # 500000000000000); (31544507245751 # 500000000000000)] [(50844906370207 # 2000000000000000)];
    IPoint [(249286745170911 # 1000000000000000); (24928674517091 # 100000000000000); (501426509658179 # 1000000000000000)] [(116786275726379 # 2000000000000000)];
    IPoint [(249286745170911 # 1000000000000000); (501426509658179 # 1000000000000000); (24928674517091 # 100000000000000)] [(116786275726379 # 2000000000000000)];
    IPoint [(25071325482909 # 50000000000000); (24928674517091 # 100000000000000); (24928674517091 # 100000000000000)] [(116786275726379 # 2000000000000000)];
    IPoint [(3321565615301 # 62500000000000); (62070490206757 # 200000000000000); (636502499121399 # 1000000000000000)] [(41425537809187 # 1000000000000000)];
    IPoint [(531450498448161 # 10000000000000000); (636502499121399 # 1000000000000000); (62070490206757 # 200000000000000)] [(41425537809187 # 1000000000000000)];
    IPoint [(62070490206757 # 200000000000000); (3321565615301 # 62500000000000); (636502499121399 # 1000000000000000)] [(41425537809187 # 1000000000000000)];
    IPoint [(636502499121399 # 1000000000000000); (3321565615301 # 62500000000000); (62070490206757 # 200000000000000)] [(41425537809187 # 1000000000000000)];
    IPoint [(636502499121399 # 1000000000000000); (62070490206757 # 200000000000000); (3321565615301 # 62500000000000)] [(41425537809187 # 1000000000000000)];
    IPoint [(62070490206757 # 200000000000000); (636502499121399 # 1000000000000000); (3321565615301 # 62500000000000)] [(41425537809187 # 1000000000000000)] ].
(** IntTriangle_Imp.hpp 138-155: barycentric coordinates. *)
Definition tri16 : list ipoint :=
  [ IPoint [(333333333333333 # 1000000000000000); (333333333333333 # 1000000000000000); (333333333333333 # 1000000000000000)] [(144315607677787 # 2000000000000000)];
    IPoint [(459292588292723 # 1000000000000000); (459292588292723 # 1000000000000000); (40707411707277 # 500000000000000)] [(19018326853457 # 400000000000000)];
    IPoint [(459292588292723 # 1000000000000000); (40707411707277 # 500000000000000); (459292588292723 # 1000000000000000)] [(19018326853457 # 400000000000000)];
    IPoint [(40707411707277 # 500000000000000); (459292588292723 # 1000000000000000); (459292588292723 # 1000000000000000)] [(19018326853457 # 400000000000000)];
    IPoint [(2132116346897 # 12500000000000); (2132116346897 # 12500000000000); (4117883653103 # 6250000000000)] [(51608685267359 # 1000000000000000)];
    IPoint [(2132116346897 # 12500000000000); (4117883653103 # 6250000000000); (2132116346897 # 12500000000000)] [(51608685267359 # 1000000000000000)];
    IPoint [(4117883653103 # 6250000000000); (2132116346897 # 12500000000000); (2132116346897 # 12500000000000)] [(51608685267359 # 1000000000000000)];
    IPoint [(50547228317031 # 1000000000000000); (50547228317031 # 1000000000000000); (449452771682969 # 500000000000000)] [(16229248811599 # 1000000000000000)];
    IPoint [(505472283170311 # 10000000000000000); (449452771682969 # 500000000000000); (50547228317031 # 1000000000000000)] [(16229248811599 # 1000000000000000)];
    IPoint [(449452771682969 # 500000000000000); (50547228317031 # 1000000000000000); (50547228317031 # 1000000000000000)] [(16229248811599 # 1000000000000000)];
    IPoint [(131556414817319 # 500000000000000); (182123098238851 # 250000000000000); (4197388704979 # 500000000000000)] [(5446062834887 # 400000000000000)];
    IPoint [(131556414817319 # 500000000000000); (4197388704979 # 500000000000000); (182123098238851 # 250000000000000)] [(5446062834887 # 400000000000000)];
    IPoint [(182123098238851 # 250000000000000); (4197388704979 # 500000000000000); (131556414817319 # 500000000000000)] [(5446062834887 # 400000000000000)];
    IPoint [(182123098238851 # 250000000000000); (131556414817319 # 500000000000000); (4197388704979 # 500000000000000)] [(5446062834887 # 400000000000000)];
    IPoint [(419738870497899 # 50000000000000000); (182123098238851 # 250000000000000); (131556414817319 # 500000000000000)] [(5446062834887 # 400000000000000)];
    IPoint [(419738870497899 # 50000000000000000); (131556414817319 # 500000000000000); (182123098238851 # 250000000000000)] [(5446062834887 # 400000000000000)] ].
(** IntTriangle_Imp.hpp 157-174: barycentric coordinates. *)
Definition tri17 : list ipoint :=
  [ IPoint [(64754228659143 # 250000000000000); (127935180275159 # 250000000000000); (28655295532849 # 125000000000000)] [(119131913257143 # 2000000000000000)];
    IPoint [(38315486899457 # 200000000000000); (189727590936979 # 250000000000000); (123780504386997 # 2500000000000000)] [(140669511500323 # 5000000000000000)];
    IPoint [(120360102779159 # 250000000000000); (152964748176719 # 1000000000000000); (73118968141329 # 200000000000000)] [(350073547709683 # 10000000000000000)];
    IPoint [(53205094869033 # 100000000000000); (157569936753717 # 5000000000000000); (436435063958927 # 1000000000000000)] [(121903872519663 # 5000000000000000)];
    IPoint [(789180748710157 # 1000000000000000); (7996669364513 # 156250000000000); (997753545981 # 6250000000000)] [(284337444805101 # 10000000000000000)];
    IPoint [(116760292071019 # 2500000000000000); (196451682410697 # 10000000000000000); (933650714930523 # 1000000000000000)] [(391142831710939 # 50000000000000000)];
    IPoint [(60823511837427 # 250000000000000); (234749045972567 # 1000000000000000); (20878276267109 # 40000000000000)] [(258955567050239 # 5000000000000000)];
    IPoint [(239834898348413 # 1000000000000000); (490868257718777 # 10000000000000000); (71107827587971 # 100000000000000)] [(313422953909681 # 10000000000000000)];
    IPoint [(164626710491629 # 5000000000000000); (109555938433047 # 250000000000000); (264425452084743 # 500000000000000)] [(122747579246257 # 5000000000000000)];
    IPoint [(953028216453241 # 1000000000000000); (16501053385167 # 500000000000000); (139696767764251 # 10000000000000000)] [(537138255764711 # 100000000000000000)];
    IPoint [(93633739933663 # 125000000000000); (104437930731803 # 500000000000000); (4205421906709 # 100000000000000)] [(257156551476807 # 10000000000000000)];
    IPoint [(162967418838331 # 5000000000000000); (92089292466547 # 100000000000000); (93027183133727 # 2000000000000000)] [(104593334080251 # 10000000000000000)];
    IPoint [(1320319424017 # 2500000000000); (6856852386687 # 25000000000000); (4939953373143 # 25000000000000)] [(30861130257577 # 625000000000000)];
    IPoint [(254286473442507 # 5000000000000000); (165458517909747 # 1000000000000000); (783684187401751 # 1000000000000000)] [(141238618115879 # 5000000000000000)];
    IPoint [(232335371251311 # 500000000000000); (98600233996671 # 200000000000000); (211640437570113 # 5000000000000000)] [(160944084200783 # 5000000000000000)];
    IPoint [(136209761693663 # 1000000000000000); (204040248392347 # 500000000000000); (227854870760821 # 500000000000000)] [(252208924769323 # 10000000000000000)];
    IPoint [(32074599395181 # 625000000000000); (356393608137091 # 500000000000000); (29486678086691 # 125000000000000)] [(16195436782863 # 500000000000000)] ].
(** IntTriangle_Imp.hpp 176-193: barycentric coordinates. *)
Definition tri20 : list ipoint :=
  [ IPoint [(496963686517477 # 1000000000000000); (119586281204411 # 250000000000000); (123455943324393 # 5000000000000000)] [(22211413639037 # 1250000000000000)];
    IPoint [(327737279831677 # 1000000000000000); (337384423616899 # 1000000000000000); (13395131862057 # 40000000000000)] [(466754493690407 # 10000000000000000)];
    IPoint [(459306059914741 # 1000000000000000); (124437846325473 # 1000000000000000); (208128046879893 # 500000000000000)] [(296528333143297 # 10000000000000000)];
    IPoint [(36038747738689 # 200000000000000); (159139243091203 # 250000000000000); (183249288941743 # 1000000000000000)] [(388044763499761 # 10000000000000000)];
    IPoint [(742607139539477 # 1000000000000000); (389975936323789 # 10000000000000000); (13649704176759 # 62500000000000)] [(1801209165609 # 80000000000000)];
    IPoint [(454226607159181 # 10000000000000000); (454671857004823 # 500000000000000); (452336252744363 # 10000000000000000)] [(65708119731809 # 5000000000000000)];
    IPoint [(61627478552089 # 125000000000000); (196826603759659 # 10000000000000000); (487297511207323 # 1000000000000000)] [(156034173661051 # 10000000000000000)];
    IPoint [(338561489335711 # 10000000000000000); (219131112934771 # 1000000000000000); (373506369065829 # 500000000000000)] [(98353271734487 # 5000000000000000)];
    IPoint [(8905416145821 # 40000000000000); (383358856024087 # 10000000000000000); (369514355376033 # 500000000000000)] [(56199071237527 # 2500000000000000)];
    IPoint [(226497889207337 # 1000000000000000); (73897950634751 # 100000000000000); (43153255556441 # 1250000000000000)] [(208710839496907 # 10000000000000000)];
    IPoint [(252265246627187 # 10000000000000000); (120024732145013 # 250000000000000); (494674546757229 # 1000000000000000)] [(178766120070067 # 10000000000000000)];
    IPoint [(372505943340189 # 500000000000000); (108756858265909 # 500000000000000); (187371983939023 # 5000000000000000)] [(26846198320099 # 1250000000000000)];
    IPoint [(337758387591633 # 10000000000000000); (370235841043999 # 500000000000000); (225752479152839 # 1000000000000000)] [(204099824730397 # 10000000000000000)];
    IPoint [(225341205721767 # 5000000000000000); (110338287748167 # 2500000000000000); (45539822187819 # 50000000000000)] [(15879278756671 # 1250000000000000)];
    IPoint [(65713111381087 # 500000000000000); (221564607148941 # 500000000000000); (53180570367493 # 125000000000000)] [(368871309935631 # 10000000000000000)];
    IPoint [(52835391675899 # 125000000000000); (111023839841321 # 250000000000000); (33305376806881 # 250000000000000)] [(190659990576789 # 5000000000000000)];
    IPoint [(8916721117901 # 25000000000000); (143083140105137 # 1000000000000000); (500248015178823 # 1000000000000000)] [(4714507268163 # 312500000000000)];
    IPoint [(911955121193499 # 1000000000000000); (109824253960297 # 2500000000000000); (441151772223827 # 10000000000000000)] [(30960557192303 # 2500000000000000)];
    IPoint [(616826389139707 # 1000000000000000); (98660468227251 # 500000000000000); (185852674405791 # 1000000000000000)] [(199753616849637 # 5000000000000000)];
    IPoint [(17205945641573 # 100000000000000); (197938105917001 # 1000000000000000); (630002437667269 # 1000000000000000)] [(15163645050357 # 400000000000000)] ].
(** IntTriangle_Imp.hpp 34-195: the switch of setBarycentricGaussPoints. *)
Definition tri_rule (n : Z) : list ipoint :=
  match n with 1%Z => tri1 | 3%Z => tri3 | 6%Z => tri6 | 7%Z => tri7 | 12%Z => tri12 | 16%Z => tri16 | 17%Z => tri17 | 20%Z => tri20 | _ => [] end.

(** BemTriangle_Imp.hpp 30-53, getIntegrationPoints (20 points, 22), and the weights 2 * area * w of laplacianCoeff (116-117). *)
Definition bem_point (p1 p2 p3 : list Q) (p : ipoint) : list Q :=
  map (fun c => nth 0 (ip_at p) 0 * nth c p1 0 + nth 1 (ip_at p) 0 * nth c p2 0 + nth 2 (ip_at p) 0 * nth c p3 0) (seq 0 3).
Definition bem_integrate (p1 p2 p3 : list Q) (area : Q) (f : list Q -> Q) : Q :=
  fold_right (fun p a => 2 * area * iweight p * f (bem_point p1 p2 p3 p) + a) 0 (tri_rule 20).

(** STL files (stl/StlFile.hpp, stl/StlFile_Imp.hpp, stl/StlUtils_Imp.hpp): facet storage, text and binary writing and reading, bounding statistics. A file
    is its list of bytes (0..255, chars as unsigned). Numbers are of an arbitrary type V; conversion to and from the 32 bits of a float and
    printing and parsing of numbers are arguments. Little-endian machine. Malformed text is UB here. File-system errors are not modelled. *)
From Coq Require Import ZArith List Bool String Ascii.
From Verif Require Import Prelude ZMap.
Import ListNotations.
Open Scope Z_scope.

Definition bytes := list Z.
Definition text (s : string) : bytes := map (fun c => Z.of_nat (nat_of_ascii c)) (list_ascii_of_string s).

Section Stl.
Context {V : Type}.
Definition coord3 : Type := (V * V * V)%type.
(** StlFile.hpp 60-80: normal, three vertices, two extra characters. *)
Record facet : Type := Facet { f_normal : coord3; f_a : coord3; f_b : coord3; f_c : coord3; f_extra : Z * Z }.
(** StlFile.hpp 22-26, 96-110: type of the file, facet ids and facets. The first component is true for FT_BINARY. *)
Record stl : Type := Stl { s_binary : bool; s_ids : list Z; s_map : zmap facet }.
(** StlFile_Imp.hpp 113-118 (addFacet). *)
Definition add_facet (s : stl) (id : Z) (f : facet) : stl := Stl (s_binary s) (s_ids s ++ [id]) (zinsert id f (s_map s)).
(** StlFile_Imp.hpp 95-111: nbFacets, facetId and facet in a loop. *)
Definition facets (s : stl) : outcome (list facet) := mapM (zat (s_map s)) (s_ids s).
(** StlFile_Imp.hpp 136-141 (reset); StlUtils_Imp.hpp 24-28 for the initial type. *)
Definition reset (s : stl) : stl := Stl (s_binary s) [] zempty.
Definition stl_new : stl := Stl false [] zempty.
(** StlFile_Imp.hpp 120-125 (removeFacet): erase(find(...)) of an absent id is UB. *)
Fixpoint erase_id (id : Z) (l : list Z) : option (list Z) :=
  match l with [] => None | x :: r => if (id =? x)%Z then Some r else option_map (cons x) (erase_id id r) end.
Definition remove_facet (s : stl) (id : Z) : outcome stl :=
  match erase_id id (s_ids s) with Some l => Ok (Stl (s_binary s) l (zdelete id (s_map s))) | None => UB end.
(** StlFile_Imp.hpp 127-134 (nextFacetId). *)
Definition next_facet (s : stl) : Z := match zlast_key (s_map s) with Some k => k + 1 | None => 0 end.
(** StlUtils_Imp.hpp 405-417 (add). *)
Definition stl_add (s other : stl) : outcome stl :=
  foldM (fun acc id => f <- zat (s_map other) id ;; Ok (add_facet acc (next_facet acc) f)) (s_ids other) s.

(** ** Binary (StlUtils_Imp.hpp 324-395) *)
Section Binary.
Context (to_f : V -> Z) (of_f : Z -> V).
(** Four bytes, least significant first. *)
Definition le4 (w : Z) : bytes := [w mod 256; (w / 256) mod 256; (w / 65536) mod 256; (w / 16777216) mod 256].
(** 324-329, writeFloat; 354-393, saveBinary. *)
Definition write_coord (c : coord3) : bytes := le4 (to_f (fst (fst c))) ++ le4 (to_f (snd (fst c))) ++ le4 (to_f (snd c)).
Definition write_facet (f : facet) : bytes :=
  write_coord (f_normal f) ++ write_coord (f_a f) ++ write_coord (f_b f) ++ write_coord (f_c f) ++ [fst (f_extra f); snd (f_extra f)].
Definition save_binary (s : stl) : outcome bytes :=
  fs <- facets s ;; Ok (repeat 0 80 ++ le4 (zlen (s_ids s)) ++ flat_map write_facet fs).
(** 338-343, getFloat; reading past the end leaves the value unset. *)
Definition read_float (bs : bytes) : outcome (V * bytes) :=
  match bs with a :: b :: c :: d :: r => Ok (of_f (a + 256 * b + 65536 * c + 16777216 * d), r) | _ => UB end.
Definition read_coord (bs : bytes) : outcome (coord3 * bytes) :=
  x <- read_float bs ;; y <- read_float (snd x) ;; z <- read_float (snd y) ;; Ok ((fst x, fst y, fst z), snd z).
(** 207-229. *)
Definition read_facet (bs : bytes) : outcome (facet * bytes) :=
  n <- read_coord bs ;; a <- read_coord (snd n) ;; b <- read_coord (snd a) ;; c <- read_coord (snd b) ;;
  match snd c with e0 :: e1 :: r => Ok (Facet (fst n) (fst a) (fst b) (fst c) (e0, e1), r) | _ => UB end.
End Binary.

(** ** Text (StlUtils_Imp.hpp 279-321) *)
Definition space (c : Z) : bool := ((9 <=? c) && (c <=? 13) || (c =? 32))%bool.
Definition newline : Z := 10.
Section Text.
Context (show : V -> bytes) (num : bytes -> option (V * bytes)).
Definition show3 (c : coord3) : bytes := show (fst (fst c)) ++ text " " ++ show (snd (fst c)) ++ text " " ++ show (snd c).
(** 279-321, saveAscii: the lines of the file. *)
Definition facet_lines (f : facet) : list bytes :=
  [text "facet normal " ++ show3 (f_normal f); text "outer loop"; text "vertex " ++ show3 (f_a f); text "vertex " ++ show3 (f_b f);
   text "vertex " ++ show3 (f_c f); text "endloop"; text "endfacet"].
Definition ascii_lines (fs : list facet) : list bytes := [text "solid"] ++ flat_map facet_lines fs ++ [text "endsolid"].
Definition unlines (l : list bytes) : bytes := flat_map (fun x => x ++ [newline]) l.
Definition save_ascii (s : stl) : outcome bytes := fs <- facets s ;; Ok (unlines (ascii_lines fs)).

(** operator>>: skip white space, then a word up to white space, or a number. *)
Fixpoint skip (bs : bytes) : bytes := match bs with c :: r => if space c then skip r else bs | [] => [] end.
Fixpoint word (bs : bytes) : bytes * bytes := match bs with c :: r => if space c then ([], bs) else let wr := word r in (c :: fst wr, snd wr) | [] => ([], []) end.
Definition read_word (bs : bytes) : outcome bytes := match skip bs with [] => UB | b => Ok (snd (word b)) end.
Definition read_num (bs : bytes) : outcome (V * bytes) := match num (skip bs) with Some x => Ok x | None => UB end.
Definition read_num3 (bs : bytes) : outcome (coord3 * bytes) :=
  x <- read_num bs ;; y <- read_num (snd x) ;; z <- read_num (snd y) ;; Ok ((fst x, fst y, fst z), snd z).
(** 231-258: words are read but not looked at; the extra characters are the default zeros. *)
Definition read_text_facet (bs : bytes) : outcome (facet * bytes) :=
  b <- read_word bs ;; b <- read_word b ;; n <- read_num3 b ;;
  b <- read_word (snd n) ;; b <- read_word b ;;
  b <- read_word b ;; p <- read_num3 b ;;
  b <- read_word (snd p) ;; q <- read_num3 b ;;
  b <- read_word (snd q) ;; r <- read_num3 b ;;
  b <- read_word (snd r) ;; b <- read_word b ;;
  Ok (Facet (fst n) (fst p) (fst q) (fst r) (0, 0), b).
End Text.

(** ** Loading (StlUtils_Imp.hpp 74-276) *)
(** 101-102, strstr(chtest, "vertex"): the text before the first zero byte; without a zero byte the search leaves the buffer. *)
Definition prefix (p l : bytes) : bool := if list_eq_dec Z.eq_dec (firstn (List.length p) l) p then true else false.
Fixpoint has (p l : bytes) : bool := (prefix p l || match l with [] => false | _ :: r => has p r end)%bool.
Fixpoint before_zero (l : bytes) : bytes := match l with c :: r => if (c =? 0)%Z then [] else c :: before_zero r | [] => [] end.
Definition find_vertex (buf : bytes) : outcome bool :=
  if has (text "vertex") (before_zero buf) then Ok true else if existsb (Z.eqb 0) buf then Ok false else UB.
(** std::getline *)
Fixpoint after_line (bs : bytes) : bytes := match bs with c :: r => if (c =? newline)%Z then r else after_line r | [] => [] end.
(** 139-160: the first five characters that are not blanks spell "facet", in any case. *)
Definition lower (c : Z) : Z := if ((65 <=? c) && (c <=? 90))%bool then c + 32 else c.
Definition starts_facet (bs : bytes) : bool :=
  if list_eq_dec Z.eq_dec (map lower (firstn 5 (filter (fun c => negb (c =? 32)%Z) bs))) (text "facet") then true else false.
(** 165-178: lines of more than four characters; j starts from 0 in the first line and from 1 in the others. *)
Fixpoint count_lines (j : Z) (n : Z) (bs : bytes) : Z :=
  match bs with
  | [] => n
  | c :: r => if (c =? newline)%Z then count_lines 1 (if (4 <? j)%Z then n + 1 else n) r else count_lines (j + 1) n r
  end.
Fixpoint read_all (get : bytes -> outcome (facet * bytes)) (n : nat) (i : Z) (s : stl) (bs : bytes) : outcome stl :=
  match n with O => Ok s | S n => fr <- get bs ;; read_all get n (i + 1) (add_facet s i (fst fr)) (snd fr) end.
(** 74-276, load: the returned flag and the object afterwards. A file of less than 340 bytes fails the test read (96-99) and is not looked at. *)
Definition load (of_f : Z -> V) (num : bytes -> option (V * bytes)) (bs : bytes) (s : stl) : outcome (bool * stl) :=
  let buf := firstn 256 (skipn 84 bs) in
  if (List.length buf <? 256)%nat then Ok (true, s)
  else
    ascii <- find_vertex buf ;;
    if ascii then
      if starts_facet (after_line bs) then
        s' <- read_all (read_text_facet num) (Z.to_nat (count_lines 0 1 bs / 7)) 0 (Stl false [] zempty) (after_line bs) ;; Ok (true, s')
      else Ok (false, Stl false (s_ids s) (s_map s))
    else if (negb ((zlen bs - 84) mod 50 =? 0) || (zlen bs <? 134))%bool then Ok (false, Stl true (s_ids s) (s_map s))
    else
      s' <- read_all (read_facet of_f) (Z.to_nat ((zlen bs - 84) / 50)) 0 (Stl true [] zempty) (skipn 84 bs) ;; Ok (true, s').
(** 398-403, save. *)
Definition save (to_f : V -> Z) (show : V -> bytes) (s : stl) : outcome bytes := if s_binary s then save_binary to_f s else save_ascii show s.
End Stl.
Arguments facet V : clear implicits.
Arguments stl V : clear implicits.

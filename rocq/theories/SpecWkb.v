(** * What a geometry is and how WKB spells it, independently of the code *)

From Coq Require Import ZArith Bool List.
From Verif Require Import F64 Geo Series RingApi Bytes Geom.
Import ListNotations.
Local Open Scope Z_scope.

(** Which coordinates a geometry has beyond x and y. *)
Record dim := Dim { dz : bool; dm : bool }.
Definition xy : dim := Dim false false.
Definition xdim (d : dim) : nat := ((if dz d then 1 else 0) + (if dm d then 1 else 0))%nat.
Definition ndim (d : dim) : nat := (2 + xdim d)%nat.

(** A position: x, y and the coordinates that the dimension calls for. *)
Definition posn := list f64.

(** The contents of a geometry: its type, its dimension, its coordinates and its
    nesting.  An empty list stands for an empty point, line, polygon, ... *)
Inductive shape :=
  | ShPoint (d : dim) (p : posn)
  | ShLine (d : dim) (ps : list posn)
  | ShPoly (d : dim) (rs : list (list posn))
  | ShPoints (d : dim) (ps : list posn)
  | ShLines (d : dim) (ls : list (list posn))
  | ShPolys (d : dim) (ps : list (list (list posn)))
  | ShGeoms (gs : list shape).

(** ** Reading the shape off a geometry value *)

(** Points with their extra coordinates, [k] for each point in turn; there must
    be exactly as many extra coordinates as the points need. *)
Fixpoint posns (k : nat) (pts : list pt) (cs : list f64) : option (list posn) :=
  match pts with
  | [] => match cs with [] => Some [] | _ => None end
  | p :: rest =>
      if (length cs <? k)%nat then None
      else match posns k rest (skipn k cs) with
           | Some ds => Some ((px p :: py p :: firstn k cs) :: ds)
           | None => None
           end
  end.

(** Several point lists sharing one list of extra coordinates. *)
Fixpoint posns_list (k : nat) (ls : list (list pt)) (cs : list f64) : option (list (list posn)) :=
  match ls with
  | [] => match cs with [] => Some [] | _ => None end
  | l :: rest =>
      match posns k l (firstn (k * length l) cs), posns_list k rest (skipn (k * length l) cs) with
      | Some a, Some b => Some (a :: b)
      | _, _ => None
      end
  end.

(** Several polygons sharing one list of extra coordinates. *)
Fixpoint posns_list2 (k : nat) (ps : list (list (list pt))) (cs : list f64)
  : option (list (list (list posn))) :=
  match ps with
  | [] => match cs with [] => Some [] | _ => None end
  | p :: rest =>
      let n := (k * length (concat p))%nat in
      match posns_list k p (firstn n cs), posns_list2 k rest (skipn n cs) with
      | Some a, Some b => Some (a :: b)
      | _, _ => None
      end
  end.

(** All of a list of optional results, or nothing. *)
Fixpoint all_some {A : Type} (l : list (option A)) : option (list A) :=
  match l with
  | [] => Some []
  | Some a :: rest => option_map (cons a) (all_some rest)
  | None :: _ => None
  end.

Definition ring_pts (r : ring) : list pt := firstn (r_npoints r) (r_points r).
Definition poly_pts (p : poly) : option (list (list pt)) :=
  match p with
  | PRing r => Some [ring_pts r]
  | PPoly e hs => option_map (fun hs => ring_pts e :: map ring_pts hs) (all_some hs)
  end.

Definition dim_of (f : flags) : dim := Dim (has_z f) (has_m f).
Definition is_xy (f : flags) : bool := negb (has_z f) && negb (has_m f).

Definition obind2 {A B : Type} (x : option A) (f : A -> option B) : option B :=
  match x with Some a => f a | None => None end.

(** The shape of a geometry; nothing if it has a missing part, or extra
    coordinates that do not match its points. *)
Fixpoint shape_of (g : geom) : option shape :=
  match g with
  | GPoint f p => if is_xy f then Some (ShPoint xy [px p; py p]) else None
  | GLine f l => if is_xy f then Some (ShLine xy (map (fun p => [px p; py p]) (ring_pts l))) else None
  | GPoly f p =>
      if is_xy f then option_map (fun rs => ShPoly xy (map (map (fun p => [px p; py p])) rs)) (poly_pts p)
      else None
  | GGPoint f p z m _ =>
      Some (ShPoint (dim_of f)
        (if is_empty f then []
         else px p :: py p :: (if has_z f then [z] else []) ++ (if has_m f then [m] else [])))
  | GGLine f l cs _ =>
      if is_empty f then Some (ShLine (dim_of f) [])
      else obind2 l (fun l => option_map (ShLine (dim_of f)) (posns (xdim (dim_of f)) (ring_pts l) cs))
  | GGPoly f p cs _ =>
      if is_empty f then Some (ShPoly (dim_of f) [])
      else obind2 p (fun p => obind2 (poly_pts p) (fun rs =>
             option_map (ShPoly (dim_of f)) (posns_list (xdim (dim_of f)) rs cs)))
  | GGMulti t f gs cs _ =>
      let d := dim_of f in
      let l := if is_empty f then [] else match gs with Some l => l | None => [] end in
      match t with
      | MPoints =>
          obind2 (all_some (map (fun o => match o with
                                          | Some (GPoint _ p) => Some p
                                          | _ => None end) l))
            (fun ps => option_map (ShPoints d) (posns (xdim d) ps cs))
      | MLines =>
          obind2 (all_some (map (fun o => match o with
                                          | Some (GLine _ l) => Some (ring_pts l)
                                          | _ => None end) l))
            (fun ls => option_map (ShLines d) (posns_list (xdim d) ls cs))
      | MPolys =>
          obind2 (all_some (map (fun o => match o with
                                          | Some (GPoly _ p) => poly_pts p
                                          | _ => None end) l))
            (fun ps => option_map (ShPolys d) (posns_list2 (xdim d) ps cs))
      | MGeoms =>
          if is_xy f then
            option_map ShGeoms
              (match gs with
               | None => Some []
               | Some l =>
                   if is_empty f then Some []
                   else all_some (map (fun o => match o with Some g => shape_of g | None => None end) l)
               end)
          else None
      end
  end.

(** ** The WKB encoding (OGC 06-103r4, section 8, with the usual +1000 for Z and
    +2000 for M) *)

(** As many coordinates as the dimension says, each a 64 bit pattern. *)
Definition posn_ok (d : dim) (p : posn) : Prop :=
  length p = ndim d /\ Forall (fun x => 0 <= x < 2 ^ 64) p.

(** [k] bytes of an integer, most significant first when [big]. *)
Definition e_int (big : bool) (k : nat) (x : Z) : list Z :=
  if big then rev (le_bytes k x) else le_bytes k x.
Definition e_posn (big : bool) (p : posn) : list Z := concat (map (e_int big 8) p).
(** byte-order mark and geometry type *)
Definition e_head (big : bool) (type : Z) (d : dim) : list Z :=
  (if big then 0 else 1)
    :: e_int big 4 (type + (if dz d then 1000 else 0) + (if dm d then 2000 else 0)).
Definition e_count {A : Type} (big : bool) (l : list A) : list Z :=
  e_int big 4 (Z.of_nat (length l)).
Definition e_posns (big : bool) (ps : list posn) : list Z :=
  e_count big ps ++ concat (map (e_posn big) ps).
Definition e_rings (big : bool) (rs : list (list posn)) : list Z :=
  e_count big rs ++ concat (map (e_posns big) rs).

(** [bs] is the concatenation of encodings of the elements. *)
Definition e_seq {A : Type} (enc : A -> list Z -> Prop) : list A -> list Z -> Prop :=
  fix go (l : list A) (bs : list Z) : Prop :=
    match l with
    | [] => bs = []
    | a :: rest => exists b1 b2, bs = b1 ++ b2 /\ enc a b1 /\ go rest b2
    end.

(** A point; an empty point is one whose coordinates are all NaN. *)
Definition point_enc (d : dim) (p : posn) (bs : list Z) : Prop :=
  exists big q, bs = e_head big 1 d ++ e_posn big q /\ posn_ok d q /\
    match p with
    | [] => forallb f_isnan q = true
    | _ => q = p /\ forallb f_isnan p = false
    end.

(** [wkb_enc s bs]: the bytes [bs] are a WKB encoding of [s], each header in
    either byte order. *)
Fixpoint wkb_enc (s : shape) (bs : list Z) {struct s} : Prop :=
  match s with
  | ShPoint d p => point_enc d p bs
  | ShLine d ps => exists big, bs = e_head big 2 d ++ e_posns big ps
  | ShPoly d rs => exists big, bs = e_head big 3 d ++ e_rings big rs
  | ShPoints d ps =>
      exists big cs, bs = e_head big 4 d ++ e_count big ps ++ cs /\
        e_seq (point_enc d) ps cs
  | ShLines d ls =>
      exists big cs, bs = e_head big 5 d ++ e_count big ls ++ cs /\
        e_seq (fun l b => exists big, b = e_head big 2 d ++ e_posns big l) ls cs
  | ShPolys d ps =>
      exists big cs, bs = e_head big 6 d ++ e_count big ps ++ cs /\
        e_seq (fun p b => exists big, b = e_head big 3 d ++ e_rings big p) ps cs
  | ShGeoms gs =>
      exists big cs, bs = e_head big 7 xy ++ e_count big gs ++ cs /\ e_seq wkb_enc gs cs
  end.

(** ** Which shapes a WKB reader can represent *)

(** A line has two positions or more; a ring three or more and ends where it
    starts, or none at all. *)
Definition line_ok (d : dim) (ps : list posn) : Prop :=
  Forall (posn_ok d) ps /\ (2 <= length ps)%nat /\ Z.of_nat (length ps) < 2 ^ 26.
Definition ring_ok (d : dim) (ps : list posn) : Prop :=
  Forall (posn_ok d) ps /\ (3 <= length ps)%nat /\ Z.of_nat (length ps) < 2 ^ 26 /\
  let a := hd [] ps in let b := last ps [] in
  feqb (nth 0 a 0) (nth 0 b 0) && feqb (nth 1 a 0) (nth 1 b 0) = true.
Definition poly_ok (d : dim) (rs : list (list posn)) : Prop :=
  rs <> [] /\ Z.of_nat (length rs) < 2 ^ 31 /\ Forall (fun r => r = [] \/ ring_ok d r) rs.
Definition point_ok (d : dim) (p : posn) : Prop :=
  posn_ok d p /\ forallb f_isnan p = false.

(** [fits depth s]: [s] can be encoded at nesting level [depth]. *)
Fixpoint fits (depth : nat) (s : shape) : Prop :=
  (depth <= 1024)%nat /\
  match s with
  | ShPoint d p => (p = [] /\ d = xy) \/ point_ok d p
  | ShLine d ps => (ps = [] /\ d = xy) \/ line_ok d ps
  | ShPoly d rs => (rs = [] /\ d = xy) \/ poly_ok d rs
  | ShPoints d ps =>
      Z.of_nat (length ps) < 2 ^ 31 /\ Forall (point_ok d) ps /\ (ps <> [] -> (depth < 1024)%nat)
  | ShLines d ls =>
      Z.of_nat (length ls) < 2 ^ 31 /\ Forall (line_ok d) ls /\ (ls <> [] -> (depth < 1024)%nat)
  | ShPolys d ps =>
      Z.of_nat (length ps) < 2 ^ 31 /\ Forall (poly_ok d) ps /\ (ps <> [] -> (depth < 1024)%nat)
  | ShGeoms gs =>
      Z.of_nat (length gs) < 2 ^ 31 /\
      (fix all (l : list shape) : Prop :=
         match l with [] => True | s :: rest => fits (S depth) s /\ all rest end) gs
  end.

(** [reads depth s]: an encoding of [s] at nesting level [depth] is read without
    an error.  More than [fits]: empty points, lines and polygons, although their
    Z and M are forgotten, also as children when there is no Z or M. *)
Fixpoint reads (depth : nat) (s : shape) : Prop :=
  (depth <= 1024)%nat /\
  match s with
  | ShPoint d p => p = [] \/ point_ok d p
  | ShLine d ps => ps = [] \/ line_ok d ps
  | ShPoly d rs => rs = [] \/ poly_ok d rs
  | ShPoints d ps =>
      Z.of_nat (length ps) < 2 ^ 31 /\ Forall (fun p => (p = [] /\ d = xy) \/ point_ok d p) ps /\
      (ps <> [] -> (depth < 1024)%nat)
  | ShLines d ls =>
      Z.of_nat (length ls) < 2 ^ 31 /\ Forall (fun l => (l = [] /\ d = xy) \/ line_ok d l) ls /\
      (ls <> [] -> (depth < 1024)%nat)
  | ShPolys d ps =>
      Z.of_nat (length ps) < 2 ^ 31 /\ Forall (fun p => (p = [] /\ d = xy) \/ poly_ok d p) ps /\
      (ps <> [] -> (depth < 1024)%nat)
  | ShGeoms gs =>
      Z.of_nat (length gs) < 2 ^ 31 /\
      (fix all (l : list shape) : Prop :=
         match l with [] => True | s :: rest => reads (S depth) s /\ all rest end) gs
  end.

(** The rings of a shape as the point lists a ring is made of. *)
Definition posn_point (p : posn) : pt := Pt (nth 0 p 0) (nth 1 p 0).
Fixpoint rings_of (s : shape) : list (list pt) :=
  match s with
  | ShPoly _ rs => map (map posn_point) rs
  | ShPolys _ ps => concat (map (map (map posn_point)) ps)
  | ShGeoms gs => concat (map rings_of gs)
  | _ => []
  end.

(** ** Geometries made of rings that the ring constructors made *)

Definition ring_made (r : ring) : Prop :=
  exists ps closed kind spread, series_new ps closed kind spread = Some r.
Definition poly_made (p : poly) : Prop :=
  match p with
  | PRing r => ring_made r
  | PPoly e hs => ring_made e /\ Forall (fun o => match o with Some r => ring_made r | None => True end) hs
  end.
Fixpoint geom_made (g : geom) : Prop :=
  match g with
  | GPoint _ _ | GGPoint _ _ _ _ _ => True
  | GLine _ l => ring_made l
  | GPoly _ p => poly_made p
  | GGLine _ l _ _ => match l with Some l => ring_made l | None => True end
  | GGPoly _ p _ _ => match p with Some p => poly_made p | None => True end
  | GGMulti _ _ gs _ _ =>
      match gs with
      | None => True
      | Some l =>
          (fix all (l : list (option geom)) : Prop :=
             match l with
             | [] => True
             | Some g :: rest => geom_made g /\ all rest
             | None :: rest => all rest
             end) l
      end
  end.

(** ** Geometries without errors *)

(** an error geometry carries the flag and a message *)
Definition error_geom (g : geom) : Prop :=
  is_error (geom_flags g) = true /\ tg_geom_error (Some g) <> None.

(** no error flag anywhere, children included *)
Fixpoint no_error (g : geom) : Prop :=
  is_error (geom_flags g) = false /\
  match g with
  | GGMulti _ _ (Some l) _ _ =>
      (fix all (l : list (option geom)) : Prop :=
         match l with
         | [] => True
         | Some g :: rest => no_error g /\ all rest
         | None :: rest => all rest
         end) l
  | _ => True
  end.

(** no missing child and no missing hole *)
Definition poly_no_null (p : poly) : Prop :=
  match p with PRing _ => True | PPoly _ hs => ~ In None hs end.
Fixpoint no_null (g : geom) : Prop :=
  match g with
  | GPoly _ p | GGPoly _ (Some p) _ _ => poly_no_null p
  | GGMulti _ _ (Some l) _ _ =>
      (fix all (l : list (option geom)) : Prop :=
         match l with
         | [] => True
         | Some g :: rest => no_null g /\ all rest
         | None :: _ => False
         end) l
  | _ => True
  end.

(** every series has less than 2^26 points, every list of rings or children less
    than 2^31 elements *)
Definition ring_small (r : ring) : Prop := Z.of_nat (length (ring_pts r)) < 2 ^ 26.
Definition poly_small (p : poly) : Prop :=
  match p with
  | PRing r => ring_small r
  | PPoly e hs => ring_small e /\ Z.of_nat (length hs) < 2 ^ 31 - 1 /\
      Forall (fun o => match o with Some r => ring_small r | None => True end) hs
  end.
Fixpoint geom_small (g : geom) : Prop :=
  match g with
  | GLine _ l | GGLine _ (Some l) _ _ => ring_small l
  | GPoly _ p | GGPoly _ (Some p) _ _ => poly_small p
  | GGMulti _ _ (Some l) _ _ =>
      Z.of_nat (length l) < 2 ^ 31 /\
      (fix all (l : list (option geom)) : Prop :=
         match l with
         | [] => True
         | Some g :: rest => geom_small g /\ all rest
         | None :: rest => all rest
         end) l
  | _ => True
  end.

(** ** Inputs that could make a 32 bit product wrap *)

(** No four bytes of the input, read as a little-endian number, are a count of
    2^28 or more whose size in bytes, reduced modulo 2^32, is at most what
    follows it. *)
Definition no_wrapping_count (bs : list Z) : Prop :=
  forall pre cnt post, bs = pre ++ cnt ++ post -> length cnt = 4%nat ->
    let n := le_val cnt in
    2 ^ 28 <= n -> Z.of_nat (length post) < (n * 16) mod 2 ^ 32.

(** ** The contract of a binary writer *)

(** [written f full]: for a buffer [dst] of any size the writer [f] returns the
    length of [full] and stores as much of [full] as fits, leaving the rest of the
    buffer alone; it never stores outside the buffer. *)
Definition written (f : list Z -> option (nat * list Z)) (full : list Z) : Prop :=
  forall dst, f dst = Some (length full, firstn (length dst) full ++ skipn (length full) dst).

(** every ring of the shape can be indexed as asked *)
Definition rings_build (e : env) (ix : Z) (s : shape) : Prop :=
  forall r, In r (rings_of s) -> series_new_ix e r true ix <> None.
